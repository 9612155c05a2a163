(** The line reader, and the fields of a word. *)
From Coq Require Import List Arith ZArith NArith Bool Lia.
From Verif Require Import Base Text_Model Text_Spec Text_Proofs1 Text_Proofs2.
Import ListNotations.
Local Open Scope N_scope.

(** ** Lines *)
Lemma take_line_ok n : forall file l r, take_line n file = (l, r) ->
  file = l ++ r /\ (length l <= n)%nat
  /\ ((exists b, l = b ++ [10] /\ ~ In 10 b) \/ (~ In 10 l /\ (length l = n \/ r = []))).
Proof.
  induction n as [|n IH]; intros file l r E; cbn [take_line] in E.
  - injection E as <- <-. repeat split; [cbn; lia|]. right. split; [intros []|left; reflexivity].
  - destruct file as [|b f].
    + injection E as <- <-. repeat split; [cbn; lia|]. right. split; [intros []|right; reflexivity].
    + destruct (N.eqb_spec b 10) as [->|N].
      * injection E as <- <-. repeat split; [cbn; lia|]. left. exists []. split; [reflexivity|intros []].
      * destruct (take_line n f) as [l0 r0] eqn:E0. injection E as <- <-.
        destruct (IH f l0 r0 E0) as (-> & Hl & Hc). repeat split; [cbn; lia|].
        destruct Hc as [(b0 & -> & Hb)|[Hn Hc]].
        -- left. exists (b :: b0). split; [reflexivity|]. intros [H|H]; [congruence|contradiction].
        -- right. split; [intros [H|H]; [congruence|contradiction]|].
           destruct Hc as [Hc|Hc]; [left; cbn; lia|right; exact Hc].
Qed.

Lemma store_holds buf s l junk : buf = s ++ junk -> ~ In 0 (s ++ l) ->
  (length s + length l + 1 <= length buf)%nat ->
  exists buf', store buf (length s) (l ++ [0]) = Ok buf' /\ holds buf' (s ++ l) /\ length buf' = length buf.
Proof.
  intros -> H0 Hlen. unfold store. rewrite app_length. cbn [length].
  destruct (Nat.leb_spec (length s + (length l + 1)) (length (s ++ junk))) as [_|L]; [|lia].
  eexists. split; [reflexivity|]. split.
  - split; [exact H0|]. rewrite firstn_app, Nat.sub_diag, firstn_all. cbn [firstn]. rewrite app_nil_r.
    exists (skipn (length s + (length l + 1)) (s ++ junk)). rewrite <- !app_assoc. reflexivity.
  - rewrite !app_length in *. rewrite firstn_length, skipn_length, app_length. cbn [length]. lia.
Qed.

Lemma holds_nonempty_last s b junk : at_off ((s ++ [b]) ++ junk) (length s) = Ok b.
Proof.
  unfold at_off. rewrite <- app_assoc, skipn_app, skipn_all2 by lia. rewrite Nat.sub_diag. reflexivity.
Qed.

Section Lines.
  Variable fresh : nat -> mem.
  Hypothesis fresh_len : forall n, length (fresh n) = n.

  (** what has been read of the current line: [s]; [ended]: nothing of the line is left *)
  Lemma fgets_loop_ok file0 : forall fuel arr len file s,
    (2 <= len <= length arr)%nat -> holds arr s -> file0 = s ++ file -> ~ In 0 file0 -> s <> [] ->
    (length s <= len - 1)%nat ->
    ((exists b, s = b ++ [10] /\ ~ In 10 b) \/ (~ In 10 s /\ ((length s = len - 1)%nat \/ file = []))) ->
    (length file < fuel)%nat ->
    exists arr' len' line rest, fgets_loop fresh fuel arr len file = Ok (arr', len', rest)
      /\ first_line file0 line rest /\ holds arr' line /\ (len <= len' <= length arr')%nat.
  Proof.
    induction fuel as [|f IH]; intros arr len file s Hlen Hh Ef H0 Hne Hl Hc Hf; [lia|].
    cbn [fgets_loop]. rewrite (strlen_holds _ _ Hh). cbn [rbind].
    destruct (exists_last Hne) as (b & x & Es).
    assert (Els : length s = S (length b)) by (rewrite Es, app_length; cbn; lia).
    destruct Hh as (Hn0 & junk & Ea). rewrite Els.
    assert (Elast : at_off arr (length b) = Ok x) by (rewrite Ea, Es; apply holds_nonempty_last).
    rewrite Elast. cbn [rbind].
    destruct (N.eqb_spec x 10) as [->|Nx].
    - exists arr, len, s, file. split; [reflexivity|]. split; [|split; [split; eauto|lia]].
      split; [exact Ef|]. destruct Hc as [Hc|[Hc _]]; [left; exact Hc|].
      exfalso. apply Hc. rewrite Es. apply in_or_app. right. left. reflexivity.
    - destruct Hc as [(b' & Eb & _)|[Hn10 Hc]].
      { exfalso. rewrite Es in Eb. apply app_inj_tail in Eb as [_ Eb]. contradiction. }
      destruct (Nat.ltb_spec (S (length b)) (len - 1)) as [L|L].
      + destruct Hc as [Hc|Hc]; [lia|]. exists arr, len, s, file. split; [reflexivity|].
        split; [|split; [split; eauto|lia]]. split; [exact Ef|]. right. auto.
      + rewrite <- Els.
        assert (Efn : firstn (length s) arr = s).
        { rewrite Ea, firstn_app, Nat.sub_diag, firstn_all. cbn [firstn]. apply app_nil_r. }
        rewrite Efn.
        destruct (store_holds (fresh (len * 2)) [] s (fresh (len * 2)) eq_refl Hn0) as (xp & Ex & Hx & Hxl).
        { rewrite fresh_len. cbn. lia. }
        cbn [length app] in Ex. rewrite Ex. cbn [rbind app] in *.
        destruct file as [|y file].
        * cbn [fgets rbind]. exists xp, len, s, []. split; [reflexivity|]. split; [|split; [exact Hx|rewrite Hxl, fresh_len; lia]].
          split; [exact Ef|]. right. auto.
        * unfold fgets. replace (len + 1 - 1)%nat with len by lia.
          destruct (take_line len (y :: file)) as [l r] eqn:Et.
          destruct (take_line_ok _ _ _ _ Et) as (Efile & Hll & Hlc).
          assert (Hlne : l <> []).
          { intros ->. destruct Hlc as [(b0 & E & _)|[_ [E|E]]].
            - destruct b0; discriminate.
            - cbn in E. lia.
            - subst r. discriminate. }
          destruct Hx as (_ & junk2 & Exp).
          assert (Elen1 : (len - 1)%nat = length s) by lia. rewrite Elen1.
          destruct (store_holds xp s l (0 :: junk2) Exp) as (arr' & Ea' & Ha' & Hal').
          { rewrite Ef, Efile, app_assoc in H0. intros Hi. apply H0. apply in_or_app. left. exact Hi. }
          { rewrite Hxl, fresh_len. lia. }
          rewrite Ea'. cbn [rbind].
          destruct (IH arr' (len * 2)%nat r (s ++ l)) as (a2 & len2 & line & rest & E2 & K1 & K2 & K3).
          -- rewrite Hal', Hxl, fresh_len. lia.
          -- exact Ha'.
          -- rewrite <- app_assoc, <- Efile. exact Ef.
          -- exact H0.
          -- destruct s; [congruence|discriminate].
          -- rewrite app_length. lia.
          -- destruct Hlc as [(b0 & -> & Hb0)|[Hn Hlc]].
             ++ left. exists (s ++ b0). split; [rewrite app_assoc; reflexivity|].
                intros Hi. apply in_app_or in Hi as [Hi|Hi]; contradiction.
             ++ right. split; [intros Hi; apply in_app_or in Hi as [Hi|Hi]; contradiction|].
                destruct Hlc as [Hlc|Hlc]; [left; rewrite app_length; lia|right; exact Hlc].
          -- assert (Elf : length (y :: file) = length (l ++ r)) by (rewrite <- Efile; reflexivity).
             rewrite app_length in Elf. destruct l; [congruence|]. cbn [length] in Elf, Hf. lia.
          -- exists a2, len2, line, rest. split; [exact E2|]. split; [exact K1|]. split; [exact K2|]. lia.
  Qed.

  Lemma ensure_fgets_ok arr len file : (2 <= len <= length arr)%nat -> ~ In 0 file -> file <> [] ->
    exists arr' len' line rest, ensure_fgets fresh arr len file = Ok (Some (arr', len', rest))
      /\ first_line file line rest /\ holds arr' line /\ (len <= len' <= length arr')%nat.
  Proof.
    intros Hlen H0 Hne. unfold ensure_fgets, fgets. destruct file as [|y file]; [congruence|].
    destruct (take_line (len - 1) (y :: file)) as [l r] eqn:Et.
    destruct (take_line_ok _ _ _ _ Et) as (Efile & Hll & Hlc).
    assert (Hlne : l <> []).
    { intros ->. destruct Hlc as [(b0 & E & _)|[_ [E|E]]].
      - destruct b0; discriminate.
      - cbn in E. lia.
      - subst r. discriminate. }
    destruct (store_holds arr [] l arr eq_refl) as (arr' & Ea' & Ha' & Hal').
    { rewrite Efile in H0. intros Hi. apply H0. apply in_or_app. left. exact Hi. }
    { cbn. lia. }
    cbn [length] in Ea'. rewrite Ea'. cbn [rbind].
    assert (Elf : length (y :: file) = length (l ++ r)) by (rewrite <- Efile; reflexivity).
    rewrite app_length in Elf.
    destruct (fgets_loop_ok (y :: file) (S (length (y :: file))) arr' len r l) as (a2 & len2 & line & rest & E2 & K1 & K2 & K3).
    - lia.
    - exact Ha'.
    - exact Efile.
    - exact H0.
    - exact Hlne.
    - lia.
    - exact Hlc.
    - lia.
    - rewrite E2. cbn [rbind]. exists a2, len2, line, rest. split; [reflexivity|]. split; [exact K1|]. split; [exact K2|]. lia.
  Qed.

  Lemma first_line_shorter file line rest : file <> [] -> first_line file line rest -> (length rest < length file)%nat.
  Proof.
    intros Hne (-> & [(b & -> & _)|(-> & _)]); rewrite !app_length; cbn [length]; [lia|].
    rewrite app_nil_r in Hne. destruct line; [congruence|]. cbn. lia.
  Qed.

  Lemma read_lines_ok : forall fuel arr len file, (2 <= len <= length arr)%nat -> ~ In 0 file ->
    (length file < fuel)%nat ->
    exists ls, read_lines fresh fuel arr len file = Ok ls /\ lines_of file ls.
  Proof.
    induction fuel as [|f IH]; intros arr len file Hlen H0 Hf; [lia|].
    destruct file as [|y file].
    - exists []. split; [reflexivity|constructor].
    - destruct (ensure_fgets_ok arr len (y :: file) Hlen H0 ltac:(discriminate)) as (a & n & line & rest & E & K1 & K2 & K3).
      cbn [read_lines]. rewrite E. cbn [rbind]. rewrite (strlen_holds _ _ K2). cbn [rbind].
      pose proof (first_line_shorter (y :: file) line rest ltac:(discriminate) K1) as Hs.
      destruct (IH a n rest) as (ls & El & Hls).
      + lia.
      + destruct K1 as (Ef & _). rewrite Ef in H0. intros Hi. apply H0. apply in_or_app. right. exact Hi.
      + lia.
      + rewrite El. cbn [rbind]. destruct K2 as (_ & junk & ->).
        rewrite firstn_app, Nat.sub_diag, firstn_all. cbn [firstn]. rewrite app_nil_r.
        exists (line :: ls). split; [reflexivity|]. econstructor; [discriminate|eassumption|assumption].
  Qed.
End Lines.

(** ** Fields *)

Lemma high_no (k : N) c e : k < 128 -> is_char e c -> high_multibyte c -> In k c -> c = [k].
Proof.
  intros Hk (l & r & -> & _) Hh Hi. destruct r as [|b r].
  - destruct Hi as [->|[]]. reflexivity.
  - specialize (Hh ltac:(cbn; lia)). rewrite Forall_forall in Hh. specialize (Hh k Hi). lia.
Qed.

Lemma esc_app k s t : esc k (s ++ t) = esc k s ++ esc k t.
Proof. unfold esc. apply flat_map_app. Qed.
Lemma esc_none k s : ~ In k s -> esc k s = s.
Proof.
  induction s as [|b s IH]; intros H; [reflexivity|]. cbn [esc flat_map]. fold (esc k s).
  rewrite IH by (intros Hi; apply H; right; exact Hi).
  destruct (N.eqb_spec b k) as [->|]; [exfalso; apply H; left; reflexivity|reflexivity].
Qed.
Lemma esc_no0 s : ~ In 0 s -> ~ In 0 (esc 59 s).
Proof.
  intros H Hi. unfold esc in Hi. apply in_flat_map in Hi as (x & Hx & Hi).
  destruct (N.eqb_spec x 59).
  - destruct Hi as [Hi|[Hi|[]]]; congruence.
  - destruct Hi as [Hi|[]]. congruence.
Qed.

Lemma find_sep_chars e u : forall fuel m, Forall (is_char e) u -> ~ In [59] u -> (length u < fuel)%nat ->
  (exists j, m = 0 :: j) \/ (exists j, m = 59 :: j) \/ (exists j, m = 92 :: 59 :: j) ->
  (length u + 2 <= fuel)%nat ->
  find_sep fuel e (concat u ++ m) =
  Ok (match m with
      | 0 :: _ => None
      | 59 :: _ => Some (length (concat u))
      | _ => Some (length (concat u) + 1)%nat
      end).
Proof.
  induction u as [|c u IH]; intros [|f] m Hc Hn Hf Hm Hf2; try lia.
  - cbn [concat app find_sep length].
    destruct Hm as [(j & ->)|[(j & ->)|(j & ->)]]; [reflexivity|reflexivity|].
    cbn [rd rbind]. change (92 =? 0) with false. change (92 =? 59) with false. cbv iota.
    assert (E1 : nbytes e (92 :: 59 :: j) = Ok 1%nat) by (destruct e; reflexivity). rewrite E1. cbn [rbind].
    change (adv 1 (92 :: 59 :: j)) with (Ok (59 :: j)). cbn [rbind].
    destruct f as [|f]; [cbn in Hf2; lia|]. reflexivity.
  - inversion Hc; subst. cbn [concat find_sep]. rewrite <- app_assoc.
    destruct (lead_single e c (concat u ++ m) 0 59 H1 ltac:(lia)) as (l & El & E59 & E0 & _).
    rewrite El. cbn [rbind]. destruct (N.eqb_spec l 0); [contradiction|]. rewrite E59.
    assert (match c with [x] => x =? 59 | _ => false end = false) as ->.
    { destruct c as [|x [|y c]]; try reflexivity. destruct (N.eqb_spec x 59) as [->|]; [|reflexivity].
      exfalso. apply Hn. left. reflexivity. }
    rewrite nbytes_char by assumption. cbn [rbind]. rewrite adv_app. cbn [rbind].
    rewrite IH; [|assumption|intros Hi; apply Hn; right; exact Hi|cbn in Hf; lia|exact Hm|cbn in Hf2; lia].
    cbn [rbind]. f_equal. rewrite app_length.
    destruct Hm as [(j & ->)|[(j & ->)|(j & ->)]]; [reflexivity|reflexivity|f_equal; lia].
Qed.

Lemma split_at_sep (cs : list (list byte)) : ~ In [59] cs \/ exists u v, cs = u ++ [59] :: v /\ ~ In [59] u.
Proof.
  induction cs as [|c cs IH]; [left; intros []|].
  destruct (list_eq_dec N.eq_dec c [59]) as [->|N].
  - right. exists [], cs. split; [reflexivity|intros []].
  - destruct IH as [H|(u & v & -> & H)].
    + left. intros [E|E]; [congruence|contradiction].
    + right. exists (c :: u), v. split; [reflexivity|]. intros [E|E]; [congruence|contradiction].
Qed.

Lemma no_sep_bytes e u : Forall (is_char e) u -> Forall high_multibyte u -> ~ In [59] u -> ~ In 59 (concat u).
Proof.
  intros Hc Hh Hn Hi. apply in_concat in Hi as (c & Hc1 & Hi).
  rewrite Forall_forall in Hc, Hh. apply Hn. rewrite <- (high_no 59 c e ltac:(lia) (Hc c Hc1) (Hh c Hc1) Hi).
  exact Hc1.
Qed.

(** the scan from inside a field: [v1] has been passed *)
Lemma next_sep_ok e before cs1 : forall n cs2 fuel stop j,
  length cs2 = n -> Forall (is_char e) (cs1 ++ cs2) -> Forall high_multibyte (cs1 ++ cs2) ->
  True ->
  forall v, v = concat (cs1 ++ cs2) -> ~ In 92 v -> (stop = 0 \/ stop = 59) ->
  (v <> [] \/ stop = 0 \/ (exists b, before = Some b /\ b <> 92)) ->
  (length cs2 < fuel)%nat ->
  next_sep fuel e before (esc 59 v ++ stop :: j) (length (esc 59 (concat cs1))) = Ok (length (esc 59 v)).
Proof.
  intros n. revert cs1. induction n as [n IH] using lt_wf_ind. intros cs1 cs2 fuel stop j En Hc Hh _ v Ev H92 Hstop Hv Hf.
  destruct fuel as [|f]; [lia|]. cbn [next_sep].
  assert (Eesc : esc 59 v = esc 59 (concat cs1) ++ esc 59 (concat cs2)).
  { rewrite Ev, concat_app, esc_app. reflexivity. }
  assert (Hc2 : Forall (is_char e) cs2) by (apply Forall_app in Hc; tauto).
  assert (Hh2 : Forall high_multibyte cs2) by (apply Forall_app in Hh; tauto).
  rewrite Eesc at 1. rewrite <- app_assoc. rewrite adv_app. cbn [rbind].
  destruct (split_at_sep cs2) as [Hn|(u & w & Eu & Hn)].
  - rewrite (esc_none 59 (concat cs2)) by (apply (no_sep_bytes e); assumption).
    rewrite find_sep_chars; [|assumption|assumption| | |].
    + cbn [rbind]. destruct Hstop as [->| ->].
      * apply strlen_holds. split; [|eauto]. apply esc_no0. rewrite Ev. apply (chars_no0 e). exact Hc.
      * cbv iota.
        assert (El : (length (esc 59 (concat cs1)) + length (concat cs2))%nat = length (esc 59 v)).
        { rewrite Eesc, app_length. rewrite (esc_none 59 (concat cs2)) by (apply (no_sep_bytes e); assumption). reflexivity. }
        rewrite El.
        destruct (length (esc 59 v)) as [|p] eqn:Ep.
        -- assert (Evn : v = []).
           { destruct v as [|x v]; [reflexivity|]. cbn [esc flat_map] in Ep. rewrite app_length in Ep.
             destruct (x =? 59); cbn in Ep; lia. }
           destruct Hv as [Hv|[Hv|(b & -> & Hb)]]; [contradiction|discriminate|].
           cbn [rbind]. destruct (N.eqb_spec b 92); [contradiction|reflexivity].
        -- assert (Hvne : v <> []) by (intros ->; discriminate).
           destruct (exists_last Hvne) as (v0 & x & Evx).
           assert (Elast : exists z, esc 59 v = z ++ [x]).
           { rewrite Evx, esc_app. unfold esc at 2. cbn [flat_map]. destruct (x =? 59).
             - exists (esc 59 v0 ++ [92]). rewrite <- app_assoc. reflexivity.
             - exists (esc 59 v0). reflexivity. }
           destruct Elast as (z & Ez).
           assert (Elz : length z = p) by (rewrite Ez, app_length in Ep; cbn in Ep; lia).
           rewrite Ez, <- Elz, holds_nonempty_last. cbn [rbind].
           assert (x <> 92) by (intros ->; apply H92; rewrite Evx; apply in_or_app; right; left; reflexivity).
           destruct (N.eqb_spec x 92); [contradiction|]. reflexivity.
    + rewrite app_length. pose proof (concat_len e _ Hc2). cbn. lia.
    + destruct Hstop as [->| ->]; eauto.
    + rewrite app_length. pose proof (concat_len e _ Hc2). cbn. lia.
  - assert (Hcu : Forall (is_char e) u) by (rewrite Eu in Hc2; apply Forall_app in Hc2; tauto).
    assert (Hhu : Forall high_multibyte u) by (rewrite Eu in Hh2; apply Forall_app in Hh2; tauto).
    assert (E2 : esc 59 (concat cs2) = concat u ++ 92 :: 59 :: esc 59 (concat w)).
    { rewrite Eu, concat_app. cbn [concat]. rewrite !esc_app. rewrite (esc_none 59 (concat u)) by (apply (no_sep_bytes e); assumption).
      reflexivity. }
    rewrite E2. rewrite <- app_assoc. cbn [app].
    rewrite find_sep_chars; [|assumption|assumption| | |].
    + cbn [rbind].
      set (c1 := esc 59 (concat cs1)) in *.
      replace (length c1 + (length (concat u) + 1))%nat with (S (length (c1 ++ concat u))) by (rewrite app_length; lia).
      cbn [rbind].
      assert (Eprev : at_off (esc 59 v ++ stop :: j) (length (c1 ++ concat u)) = Ok 92).
      { rewrite Eesc, E2. replace ((c1 ++ concat u ++ 92 :: 59 :: esc 59 (concat w)) ++ stop :: j)
          with (((c1 ++ concat u) ++ [92]) ++ 59 :: esc 59 (concat w) ++ stop :: j)
          by (rewrite <- !app_assoc; cbn [app]; reflexivity).
        apply holds_nonempty_last. }
      rewrite Eprev. cbn [rbind]. change (92 =? 92) with true. cbv iota.
      assert (Eext : S (S (length (c1 ++ concat u))) = length (esc 59 (concat (cs1 ++ u ++ [[59]])))).
      { rewrite !concat_app, !esc_app, !app_length. cbn [concat app].
        rewrite (esc_none 59 (concat u)) by (apply (no_sep_bytes e); assumption).
        fold c1. change (esc 59 [59]) with [92; 59]. cbn [length]. lia. }
      rewrite Eext.
      assert (Ecs : cs1 ++ cs2 = (cs1 ++ u ++ [[59]]) ++ w).
      { rewrite Eu, <- !app_assoc. reflexivity. }
      assert (Hlt : (length w < n)%nat) by (rewrite <- En, Eu, app_length; cbn [length]; lia).
      apply (IH (length w) Hlt (cs1 ++ u ++ [[59]]) w f stop j eq_refl); try assumption; try exact I.
      * rewrite <- Ecs. exact Hc.
      * rewrite <- Ecs. exact Hh.
      * rewrite <- Ecs. exact Ev.
      * rewrite Eu, app_length in Hf. cbn in Hf. lia.
    + rewrite app_length. pose proof (concat_len e _ Hcu). cbn. lia.
    + right. right. eauto.
    + rewrite app_length. pose proof (concat_len e _ Hcu). cbn. lia.
Qed.

Lemma field_end e before cs stop j : Forall (is_char e) cs -> Forall high_multibyte cs ->
  ~ In 92 (concat cs) -> (stop = 0 \/ stop = 59) ->
  (cs <> [] \/ stop = 0 \/ (exists b, before = Some b /\ b <> 92)) ->
  next_sep (S (length (esc 59 (concat cs) ++ stop :: j))) e before (esc 59 (concat cs) ++ stop :: j) 0
  = Ok (length (esc 59 (concat cs))).
Proof.
  intros Hc Hh H92 Hs Hv.
  apply (next_sep_ok e before [] (length cs) cs _ stop j eq_refl Hc Hh I (concat cs) eq_refl H92 Hs).
  - destruct Hv as [Hv|Hv]; [left|right; exact Hv].
    destruct cs as [|c cs]; [congruence|]. inversion Hc; subst. apply char_nonempty in H1.
    cbn. destruct c; [congruence|discriminate].
  - rewrite app_length. pose proof (concat_len e _ Hc).
    assert (length (concat cs) <= length (esc 59 (concat cs)))%nat.
    { generalize (concat cs). intros l. induction l as [|x l IHl]; [cbn; lia|]. cbn [esc flat_map]. rewrite app_length.
      fold (esc 59 l). destruct (x =? 59); cbn [length] in *; lia. }
    cbn. lia.
Qed.

Definition field_ok (e : enc) (cs : list (list byte)) : Prop :=
  Forall (is_char e) cs /\ Forall high_multibyte cs /\ ~ In 92 (concat cs).

Lemma no_escape_field cs m : ~ In 92 (concat cs) ->
  no_escape (esc 59 (concat cs) ++ m) (length (esc 59 (concat cs))) = Ok (concat cs).
Proof.
  intros H. rewrite no_escape_app, filter_esc by lia. f_equal. apply filter_id. exact H.
Qed.

Lemma esc_lead cs x m : cs <> [] -> Forall (fun c => c <> []) cs -> ~ (exists r, concat cs = 123 :: r) -> x <> 123 ->
  exists b r, esc 59 (concat cs) ++ m = b :: r /\ b <> 123.
Proof.
  intros Hne Hf Hn _. destruct (concat cs) as [|b r] eqn:E.
  - exfalso. destruct cs as [|c cs]; [congruence|]. inversion Hf; subst. cbn in E.
    apply app_eq_nil in E as [E _]. contradiction.
  - cbn [esc flat_map]. destruct (N.eqb_spec b 59) as [->|].
    + cbn [app]. eexists; eexists; split; [reflexivity|lia].
    + cbn [app]. eexists; eexists; split; [reflexivity|]. intros ->. apply Hn. eauto.
Qed.

Lemma parse_plain e cs j : field_ok e cs -> ~ (exists r, concat cs = 123 :: r) ->
  parse_word e (esc 59 (concat cs) ++ 0 :: j) = Ok {| p_text := concat cs; p_tag1 := None; p_tag2 := None |}.
Proof.
  intros (Hc & Hh & H92) Hn. unfold parse_word.
  assert (Hb : exists b r, esc 59 (concat cs) ++ 0 :: j = b :: r /\ b <> 123).
  { destruct cs as [|c cs]; [exists 0, j; split; [reflexivity|lia]|].
    apply (esc_lead _ 0); [discriminate| |exact Hn|lia].
    eapply Forall_impl; [|exact Hc]. apply char_nonempty. }
  destruct Hb as (b & r & Eb & Hb). rewrite Eb at 1. cbn [rd rbind].
  destruct (N.eqb_spec b 123); [contradiction|].
  rewrite field_end; try assumption; [|left; reflexivity|right; left; reflexivity]. cbn [rbind].
  rewrite no_escape_field by exact H92. cbn [rbind]. rewrite adv_app. reflexivity.
Qed.

Lemma parse_tagged e cs t1 t2 j : field_ok e cs -> field_ok e t1 -> field_ok e t2 -> cs <> [] ->
  ~ (exists r, concat cs = 123 :: r) ->
  parse_word e ((esc 59 (concat cs) ++ [59] ++ esc 59 (concat t1) ++ [59] ++ esc 59 (concat t2)) ++ 0 :: j) =
  Ok {| p_text := concat cs; p_tag1 := Some (concat t1); p_tag2 := Some (concat t2) |}.
Proof.
  intros (Hc & Hh & H92) (Hc1 & Hh1 & H921) (Hc2 & Hh2 & H922) Hne Hn. unfold parse_word.
  set (m5 := esc 59 (concat t2) ++ 0 :: j).
  set (m3 := esc 59 (concat t1) ++ 59 :: m5).
  assert (Em : (esc 59 (concat cs) ++ [59] ++ esc 59 (concat t1) ++ [59] ++ esc 59 (concat t2)) ++ 0 :: j
             = esc 59 (concat cs) ++ 59 :: m3).
  { unfold m3, m5. rewrite <- !app_assoc. cbn [app]. reflexivity. }
  rewrite Em. clear Em.
  destruct (esc_lead cs 0 (59 :: m3) Hne) as (b & r & Eb & Hb).
  { eapply Forall_impl; [|exact Hc]. apply char_nonempty. }
  { exact Hn. }
  { lia. }
  rewrite Eb at 1. cbn [rd rbind]. destruct (N.eqb_spec b 123); [contradiction|].
  rewrite field_end; try assumption; [|right; reflexivity|left; exact Hne]. cbn [rbind].
  rewrite no_escape_field by exact H92. cbn [rbind]. rewrite adv_app. cbn [rbind rd].
  change (59 =? 0) with false. cbv iota. change (adv 1 (59 :: m3)) with (Ok m3). cbn [rbind].
  unfold m3 at 1 2 3. rewrite field_end; try assumption; [|right; reflexivity|right; right; exists 59; split; [reflexivity|lia]].
  cbn [rbind]. unfold m3 at 1. rewrite no_escape_field by exact H921. cbn [rbind].
  unfold m3. rewrite adv_app. cbn [rbind rd].
  change (59 =? 0) with false. cbv iota. change (adv 1 (59 :: m5)) with (Ok m5). cbn [rbind].
  unfold m5 at 1 2. rewrite field_end; try assumption; [|left; reflexivity|right; left; reflexivity].
  cbn [rbind]. unfold m5. rewrite no_escape_field by exact H922. reflexivity.
Qed.
