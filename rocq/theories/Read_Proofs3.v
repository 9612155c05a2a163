(** Proofs about Read_Model: the window of the reference. *)
From Coq Require Import List NArith ZArith Arith Bool Lia.
From Verif Require Import Base Chan_Model Chan_Spec Chan_Proofs Read_Model Read_Spec Read_Proofs.
Import ListNotations.
Local Open Scope res_scope.
Local Open Scope Z_scope.

Lemma split_newline x r : Forall (fun c => c <> 10%N) x -> split_line (x ++ 10%N :: r) = (x ++ [10%N], r).
Proof.
  induction x as [|c x IH]; intros F; cbn [app split_line]; [reflexivity|].
  inversion F; subst. rewrite (proj2 (N.eqb_neq _ _)) by assumption. rewrite IH by assumption. reflexivity.
Qed.
Lemma split_end x : Forall (fun c => c <> 10%N) x -> split_line x = (x, []).
Proof.
  induction x as [|c x IH]; intros F; cbn [split_line]; [reflexivity|].
  inversion F; subst. rewrite (proj2 (N.eqb_neq _ _)) by assumption. rewrite IH by assumption. reflexivity.
Qed.
Lemma get_line_spec f l r : rest f = l ++ r -> Line l r ->
  get_line f = (Some l, {| rest := r; feof := feof f || negb (N.eqb (last l 0%N) 10) |}) /\
  (has_newline l \/ (negb (N.eqb (last l 0%N) 10) = true /\ r = [])).
Proof.
  intros E (NE & x & Fx & Hl). unfold get_line. rewrite E.
  assert (HL : l ++ r <> []) by (destruct l; [congruence|discriminate]).
  assert (HS : split_line (l ++ r) = (l, r)).
  { destruct Hl as [-> | [-> ->]]; [rewrite <- app_assoc; apply split_newline, Fx|rewrite app_nil_r; apply split_end, Fx]. }
  destruct (l ++ r) eqn:EA; [congruence|]. rewrite HS. split; [reflexivity|].
  destruct Hl as [-> | [-> ->]]; [left; exists x; reflexivity|right; split; [|reflexivity]].
  apply negb_true_iff, N.eqb_neq. intro E10. rewrite (app_removelast_last 0%N NE) in Fx. apply Forall_app in Fx. destruct Fx as [_ Fx].
  inversion Fx; subst. contradiction.
Qed.
Lemma newline_last l : has_newline l -> negb (N.eqb (last l 0%N) 10) = false.
Proof. intros (x & ->). rewrite last_last. reflexivity. Qed.
Lemma skippable_iff l : skippable l = true <-> stm_skips l.
Proof.
  unfold skippable, stm_skips. rewrite !orb_true_iff, or_assoc.
  assert (T : forall c, twice c l = true <-> exists x, l = c :: c :: x).
  { intro c. destruct l as [|a [|b l]]; cbn [twice]; try (split; [discriminate|intros (x & E); discriminate E]).
    rewrite andb_true_iff, !N.eqb_eq. split; [intros [-> ->]; eauto|intros (x & E); injection E as -> -> _; auto]. }
  rewrite !T.
  assert (B : forallb isspace l = true <-> Forall (fun c => c = 32%N \/ (9 <= c <= 13)%N) l).
  { rewrite forallb_forall, Forall_forall. split; intros H c Hc; specialize (H c Hc).
    - unfold isspace in H. rewrite orb_true_iff, andb_true_iff, N.eqb_eq, !N.leb_le in H. tauto.
    - unfold isspace. rewrite orb_true_iff, andb_true_iff, N.eqb_eq, !N.leb_le. tauto. }
  rewrite B. tauto.
Qed.
Lemma skippable_false l : skippable l = false <-> ~ stm_skips l.
Proof. rewrite <- skippable_iff. destruct (skippable l); split; congruence. Qed.

(** A file of which [ok] says what is left. *)
Definition fine (f : FILE) : Prop := feof f = true -> rest f = [].

Section Stm.
  Variable numS : str -> Z.
  Variable cs : bool.
  Notation StmFile := (StmFile numS cs).

  Lemma stm_nil b : StmFile [] b -> b = [].
  Proof. intros F. inversion F as [|l r ss L NL SK F' E1|l r s ss L SK P F' E1]; [reflexivity| |]; destruct L as (NE & _); (destruct l; [congruence|discriminate E1]). Qed.

  Lemma read_loop fuel : forall R rem, StmFile R rem -> forall buf f, rest f = R -> feof f = false -> skippable buf = true ->
    (S (length R) < fuel)%nat ->
    match rem with
    | [] => exists f', read_stm_loop fuel buf f = Ok ([], f') /\ rest f' = [] /\ feof f' = true
    | s :: ss => exists l f', read_stm_loop fuel buf f = Ok (l, f') /\ l <> [] /\ parse_stm_line numS cs l = Ok s /\
        StmFile (rest f') ss /\ fine f' /\ (length (rest f') < length R)%nat
    end.
  Proof.
    induction fuel as [|n IH]; intros R rem F buf f ER EF SK L; [lia|]. cbn [read_stm_loop]. rewrite EF, SK. cbn [negb andb].
    inversion F as [E1 E2|l r ss HL NL HS F' E1 E2|l r s ss HL NS P F' E1 E2].
    - unfold get_line. rewrite ER, <- E1. subst rem.
      destruct n as [|n]; [lia|]. cbn [read_stm_loop feof negb andb]. eexists. split; [reflexivity|]. auto.
    - subst ss. destruct (get_line_spec f l r) as [-> _]; [congruence|exact HL|].
      rewrite EF, (newline_last l NL). cbn [orb].
      assert (LL : length R = (length l + length r)%nat) by (rewrite <- E1, app_length; reflexivity).
      assert (0 < length l)%nat by (destruct HL as (NE & _); destruct l; [congruence|cbn [length]; lia]).
      specialize (IH r rem F' l {| rest := r; feof := false |} eq_refl eq_refl (proj2 (skippable_iff l) HS) ltac:(lia)).
      destruct rem as [|s ss]; [exact IH|]. destruct IH as (l' & f' & A & B & C & D & G & K). exists l', f'. split; [exact A|]. split; [exact B|]. split; [exact C|]. split; [exact D|]. split; [exact G|]. rewrite ?E1. lia.
    - subst rem. destruct (get_line_spec f l r) as [-> HN]; [congruence|exact HL|].
      assert (LL : length R = (length l + length r)%nat) by (rewrite <- E1, app_length; reflexivity).
      assert (0 < length l)%nat by (destruct HL as (NE & _); destruct l; [congruence|cbn [length]; lia]).
      destruct n as [|n]; [lia|]. cbn [read_stm_loop]. rewrite (proj2 (skippable_false l) NS), andb_false_r.
      eexists l, _. split; [reflexivity|]. split; [destruct HL; assumption|]. split; [exact P|]. cbn [rest]. split; [exact F'|].
      split; [|rewrite ?E1; lia]. unfold fine. cbn [feof rest]. rewrite EF. cbn [orb]. intro E.
      destruct HN as [HN|[_ HN]]; [rewrite (newline_last l HN) in E; discriminate|exact HN].
  Qed.
  Lemma read_line f rem : StmFile (rest f) rem -> feof f = false ->
    match rem with
    | [] => exists f', read_stm_line f = Ok ([], f') /\ rest f' = [] /\ feof f' = true
    | s :: ss => exists l f', read_stm_line f = Ok (l, f') /\ l <> [] /\ parse_stm_line numS cs l = Ok s /\
        StmFile (rest f') ss /\ fine f' /\ (length (rest f') < length (rest f))%nat
    end.
  Proof. intros F EF. apply (read_loop (S (S (length (rest f)))) _ rem F [59; 59]%N f eq_refl EF eq_refl). lia. Qed.

  Lemma fill_loop fuel : forall f rem max segs, StmFile (rest f) rem -> fine f ->
    ((if feof f then 0 else S (length (rest f))) < fuel)%nat -> Z.of_nat (length segs) + 1 <= max ->
    exists a b f', fill_STM_loop numS fuel cs f max segs = Ok (segs ++ a, f') /\ rem = a ++ b /\ StmFile (rest f') b /\ fine f' /\
      Z.of_nat (length (segs ++ a)) + 1 <= max /\
      (length (rest f') <= length (rest f))%nat /\ (feof f = true -> feof f' = true) /\
      (feof f' = true \/ max <= Z.of_nat (length (segs ++ a)) + 1) /\
      (Z.of_nat (length segs) + 1 < max -> feof f' = true \/ (length (rest f') < length (rest f))%nat).
  Proof.
    induction fuel as [|n IH]; intros f rem max segs F FI L M; [lia|]. cbn [fill_STM_loop].
    destruct (feof f) eqn:EF; cbn [negb andb].
    - exists [], rem, f. rewrite app_nil_r, EF. repeat (split; [auto; fail|]). auto.
    - destruct (Z.ltb_spec (Z.of_nat (length segs) + 1) max) as [LM|LM].
      + pose proof (read_line f rem F EF) as RL. destruct rem as [|s ss].
        * destruct RL as (f' & -> & R0 & E0). cbn [rbind].
          destruct (IH f' [] max segs) as (a & b & f2 & -> & Eab & F2 & FI2 & M2 & L2 & K2 & G2 & P2); [rewrite R0; constructor|intros _; exact R0|rewrite E0; lia|exact M|].
          exists a, b, f2. rewrite R0 in L2. cbn [length] in L2. repeat (split; [first [assumption|lia|tauto]|]). intros _. left. apply K2, E0.
        * destruct RL as (l & f' & -> & NE & P & F' & FI' & LR). cbn [rbind]. destruct l as [|l0 l]; [congruence|]. rewrite P. cbn [rbind].
          destruct (IH f' ss max (segs ++ [s])) as (a & b & f2 & -> & Eab & F2 & FI2 & M2 & L2 & K2 & G2 & P2); [assumption|assumption| | |].
          { destruct (feof f'); lia. }
          { rewrite app_length. cbn [length]. lia. }
          exists (s :: a), b, f2. rewrite <- app_assoc in *. cbn [app] in *. subst ss.
          repeat (split; [first [assumption|reflexivity|lia|tauto]|]). right. lia.
      + exists [], rem, f. rewrite app_nil_r, EF. repeat (split; [first [discriminate|auto; fail]|]). intros; lia.
  Qed.

  (** The window: what is ahead of stm->s, with the boundary of the file. *)
  Definition ahead (w : swin) : list sline := skipn (Z.to_nat (s_s w)) (s_segs w).
  Definition file_change (L : list sline) : Prop :=
    exists k x y z, L = (k :: x) ++ y :: z /\ Forall (fun s : sline => file s = file k) x /\ file y <> file k.

  Lemma change_some {A} (same : A -> bool) l : forall x e, change_at same x l = Some e ->
    exists a b c, l = a ++ b :: c /\ Forall (fun s => same s = true) a /\ same b = false.
  Proof.
    induction l as [|s l IH]; intros x e E; [discriminate|]. cbn [change_at] in E. destruct (same s) eqn:ES.
    - destruct (IH _ _ E) as (a & b & c & -> & Fa & Sb). exists (s :: a), b, c. auto.
    - exists [], s, l. auto.
  Qed.
  Lemma locate_change (w : swin) : (Z.to_nat (s_s w) <= length (s_segs w))%nat -> 0 <= s_s w ->
    locate_file (map l_seg (s_segs w)) (s_s w) <> Z.of_nat (length (s_segs w)) -> file_change (ahead w).
  Proof.
    intros LE P NE. unfold locate_file in NE. rewrite map_length in NE.
    destruct (Z.eqb_spec (s_s w) (Z.of_nat (length (s_segs w)))) as [E|E]; [congruence|].
    rewrite skipn_map in NE. fold (ahead w) in NE. destruct (ahead w) as [|k r]; [cbn [map] in NE; congruence|].
    cbn [map] in NE. change (l_seg k :: map l_seg r) with (map l_seg (k :: r)) in NE.
    destruct (change_at _ (s_s w) (map l_seg (k :: r))) as [e|] eqn:C; [|congruence].
    destruct (change_some _ _ _ _ C) as (a & b & c & Em & Fa & Sb). 
    apply map_eq_app in Em. destruct Em as (a1 & r1 & Ek & <- & Er). destruct r1 as [|y z]; [discriminate Er|]. injection Er as <- <-.
    assert (HB : file y <> file k) by (intro X; rewrite X in Sb; rewrite (proj2 (str_eqb_iff _ _) eq_refl) in Sb; discriminate).
    destruct a1 as [|k' x].
    - injection Ek as -> _. congruence.
    - injection Ek as <- ->. exists k, x, y, z. split; [reflexivity|]. split; [|exact HB].
      rewrite Forall_forall in *. intros s Hs. symmetry. apply str_eqb_iff. apply Fa. apply in_map. right. exact Hs.
  Qed.

  Lemma structure fuel : forall (jr : bool) w f rem, StmFile (rest f) rem -> fine f ->
    2 <= s_max w -> 0 <= s_s w -> Z.of_nat (length (s_segs w)) + 1 <= s_max w ->
    (feof f = true \/ s_s w <= Z.of_nat (length (s_segs w))) ->
    ((if feof f then 0 else if jr then S (length (rest f)) else S (S (length (rest f)))) < fuel)%nat ->
    exists w' f' rem', fill_STM_structure numS fuel cs jr w f (feof f) = Ok (w', f', feof f') /\
      StmFile (rest f') rem' /\ fine f' /\ ahead w ++ rem = ahead w' ++ rem' /\
      2 <= s_max w' /\ 0 <= s_s w' /\ Z.of_nat (length (s_segs w')) + 1 <= s_max w' /\
      (s_s w <= Z.of_nat (length (s_segs w)) -> s_s w' <= Z.of_nat (length (s_segs w'))) /\
      (s_s w' <= Z.of_nat (length (s_segs w')) \/ (w' = w /\ rem = [])) /\
      ((feof f' = true /\ rem' = []) \/ file_change (ahead w')).
  Proof.
    induction fuel as [|n IH]; intros jr w f rem F FI M S0 M2 SB L; [lia|]. cbn [fill_STM_structure].
    set (e := locate_file (map l_seg (s_segs w)) (s_s w)).
    assert (R0 : feof f = true -> rem = []) by (intro E; apply stm_nil; rewrite <- (FI E); exact F).
    destruct (feof f) eqn:EF.
    - cbn [negb]. rewrite andb_false_r. specialize (R0 eq_refl). exists w, f, rem. rewrite EF. split; [reflexivity|]. split; [exact F|]. split; [exact FI|]. split; [reflexivity|]. split; [exact M|]. split; [exact S0|]. split; [exact M2|]. split; [auto|]. split; [right; auto|left; auto].
    - destruct SB as [|SB]; [discriminate|]. cbn [negb]. rewrite andb_true_r. destruct (Z.eqb_spec e (Z.of_nat (length (s_segs w)))) as [Ee|Ee].
      + set (w1 := if jr then _ else w).
        assert (W1 : s_s w1 = s_s w /\ s_segs w1 = s_segs w /\ 2 <= s_max w1 /\ Z.of_nat (length (s_segs w)) + 1 <= s_max w1 /\ (jr = true -> Z.of_nat (length (s_segs w)) + 1 < s_max w1)).
        { subst w1. destruct jr; cbn [s_s s_segs s_max]; repeat split; try lia; discriminate. }
        destruct W1 as (W1s & W1l & W1m & W1a & W1b). clearbody w1.
        unfold fill_STM. rewrite W1s, W1l.
        assert (HW : exists w2, (if 1 <? s_s w then if Z.of_nat (length (s_segs w)) <? s_s w then Undef
             else Ok {| s_max := s_max w1; s_s := 0; s_segs := skipn (Z.to_nat (s_s w)) (s_segs w) |} else Ok w1) = Ok w2 /\
             ahead w2 = ahead w /\ s_max w2 = s_max w1 /\ 0 <= s_s w2 /\ s_s w2 <= Z.of_nat (length (s_segs w2)) /\
             (length (s_segs w2) <= length (s_segs w))%nat).
        { destruct (1 <? s_s w).
          - rewrite (proj2 (Z.ltb_ge _ _)) by lia. eexists. split; [reflexivity|]. unfold ahead. cbn [s_s s_segs s_max].
            rewrite skipn_length. repeat split; try reflexivity; lia.
          - exists w1. split; [reflexivity|]. unfold ahead. rewrite W1s, W1l. repeat split; auto. }
        destruct HW as (w2 & -> & A2 & Mx2 & P2 & B2 & C2). cbn [rbind].
        destruct (fill_loop (S (S (length (rest f)))) f rem (s_max w2) (s_segs w2) F FI) as (a & b & f' & -> & Eab & F' & FI' & M' & L' & K' & G' & Pr');
          [rewrite EF; lia|rewrite Mx2; lia|]. cbn [rbind].
        set (w3 := {| s_max := s_max w2; s_s := s_s w2; s_segs := s_segs w2 ++ a |}).
        assert (A3 : ahead w3 = ahead w ++ a).
        { rewrite <- A2. unfold ahead, w3. cbn [s_s s_segs]. rewrite skipn_app.
          replace (Z.to_nat (s_s w2) - length (s_segs w2))%nat with O by lia. reflexivity. }
        destruct (IH true w3 f' b F' FI') as (w' & f2 & rem' & E' & F2 & FI2 & Ea & Q1 & Q2 & Q3 & Q4 & Q5 & Q6).
        { unfold w3; cbn [s_max]. lia. } { unfold w3; cbn [s_s]. lia. } { unfold w3; cbn [s_max s_segs]. exact M'. }
        { right. unfold w3; cbn [s_s s_segs]. rewrite app_length. lia. }
        { destruct (feof f') eqn:EF'; [destruct jr; lia|]. destruct jr.
          - destruct Pr' as [Pr'|Pr']; [rewrite Mx2; specialize (W1b eq_refl); lia|congruence|lia].
          - lia. }
        rewrite E'. exists w', f2, rem'. split; [reflexivity|]. repeat (split; [assumption|]).
        split; [rewrite Eab, app_assoc, <- A3; exact Ea|]. repeat (split; [assumption|]).
        assert (SW : s_s w' <= Z.of_nat (length (s_segs w'))) by (apply Q4; unfold w3; cbn [s_s s_segs]; rewrite app_length; lia).
        split; [intros _; exact SW|]. split; [left; exact SW|exact Q6].
      + exists w, f, rem. rewrite EF. split; [reflexivity|]. split; [exact F|]. split; [exact FI|]. split; [reflexivity|]. split; [exact M|]. split; [exact S0|]. split; [exact M2|]. split; [auto|]. split; [left; exact SB|].
        right. apply locate_change; [lia|lia|exact Ee].
  Qed.
End Stm.
