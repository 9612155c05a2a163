(** Proofs about Read_Model: fields and lines. *)
From Coq Require Import List NArith ZArith Arith Bool Lia.
From Verif Require Import Base Chan_Model Read_Model Read_Spec.
Import ListNotations.
Local Open Scope res_scope.

Lemma blank_iff c : blank c = true <-> is_blank c.
Proof. unfold blank, is_blank. rewrite !orb_true_iff, !N.eqb_eq. tauto. Qed.
Lemma blank_false c : blank c = false <-> ~ is_blank c.
Proof. rewrite <- blank_iff. destruct (blank c); split; congruence. Qed.

Lemma skip_blank_spec b : Forall is_blank b -> no_nul b -> forall r d, (d = 0%N \/ ~ is_blank d) -> skip_blank (b ++ d :: r) = Ok (length b).
Proof.
  induction b as [|c b IH]; intros F Nn r d D; cbn [app skip_blank length].
  - destruct (N.eqb_spec d 0); [reflexivity|]. destruct D as [|D]; [contradiction|]. rewrite (proj2 (blank_false d) D). reflexivity.
  - inversion F; inversion Nn; subst. rewrite (proj2 (N.eqb_neq _ _)) by assumption. rewrite (proj2 (blank_iff c)) by assumption.
    rewrite IH by assumption. reflexivity.
Qed.
Lemma tok_len_spec w : Forall (fun c => ~ is_blank c) w -> no_nul w -> forall r d, (d = 0%N \/ is_blank d) -> tok_len (w ++ d :: r) = Ok (length w).
Proof.
  induction w as [|c w IH]; intros F Nn r d D; cbn [app tok_len length].
  - destruct (N.eqb_spec d 0); [reflexivity|]. destruct D as [|D]; [contradiction|]. rewrite (proj2 (blank_iff d) D). reflexivity.
  - inversion F; inversion Nn; subst. rewrite (proj2 (N.eqb_neq _ _)) by assumption. rewrite (proj2 (blank_false c)) by assumption.
    rewrite IH by assumption. reflexivity.
Qed.
Lemma cstr_spec w : no_nul w -> forall r, cstr (w ++ 0%N :: r) = Ok w.
Proof.
  induction w as [|c w IH]; intros Nn r; cbn [app cstr]; [reflexivity|].
  inversion Nn; subst. rewrite (proj2 (N.eqb_neq _ _)) by assumption. rewrite IH by assumption. reflexivity.
Qed.
Lemma at_app p c r : at_ (p ++ c :: r) (length p) = Ok c.
Proof. unfold at_. rewrite nth_error_app2, Nat.sub_diag by lia. reflexivity. Qed.
Lemma skipn_pre {A} (p r : list A) : skipn (length p) (p ++ r) = r.
Proof. rewrite skipn_app, Nat.sub_diag, skipn_all. reflexivity. Qed.
Lemma put_app p c r d : put (p ++ c :: r) (length p) d = p ++ d :: r.
Proof.
  unfold put. rewrite firstn_app, Nat.sub_diag, firstn_all. cbn [firstn]. rewrite app_nil_r. f_equal. f_equal.
  change (S (length p)) with (1 + length p). replace (1 + length p) with (length (p ++ [c])) by (rewrite app_length; cbn [length]; lia).
  replace (p ++ c :: r) with ((p ++ [c]) ++ r) by (rewrite <- app_assoc; reflexivity). apply skipn_pre.
Qed.
Lemma nul_app a b : no_nul (a ++ b) <-> no_nul a /\ no_nul b.
Proof. apply Forall_app. Qed.

(** strtok at [rem], the text that is left. *)
Lemma strtok_none pre rem : Forall is_blank rem -> no_nul rem ->
  exists e, strtok (pre ++ rem ++ [0%N]) (length pre) = Ok (None, pre ++ rem ++ [0%N], e).
Proof.
  intros F Nn. unfold strtok. destruct rem as [|c rem].
  - cbn [app]. rewrite at_app. cbn [rbind N.eqb]. eauto.
  - cbn [app]. rewrite at_app. cbn [rbind]. inversion Nn; subst. rewrite (proj2 (N.eqb_neq _ _)) by assumption.
    rewrite skipn_pre. change (c :: rem ++ [0%N]) with ((c :: rem) ++ 0%N :: []). rewrite skip_blank_spec by auto.
    cbn [rbind]. rewrite app_assoc, <- app_length, at_app. cbn [rbind N.eqb]. eauto.
Qed.
Lemma nonblank_hd w : w <> [] -> Forall (fun c => ~ is_blank c) w -> exists d w', w = d :: w' /\ ~ is_blank d.
Proof. destruct w as [|d w]; [congruence|]. intros _ F. inversion F; subst. eauto. Qed.
Lemma strtok_some pre b w r : Forall is_blank b -> w <> [] -> Forall (fun c => ~ is_blank c) w ->
  match r with c :: _ => is_blank c | [] => True end -> no_nul (b ++ w ++ r) ->
  strtok (pre ++ (b ++ w ++ r) ++ [0%N]) (length pre) =
  match r with
  | [] => Ok (Some (length (pre ++ b)), (pre ++ b) ++ w ++ [0%N], length (pre ++ b ++ w))
  | c :: r' => Ok (Some (length (pre ++ b)), (pre ++ b) ++ w ++ 0%N :: r' ++ [0%N], length (pre ++ b ++ w ++ [0%N]))
  end.
Proof.
  intros Fb NE Fw Hr Nn. apply nul_app in Nn. destruct Nn as [Nb Nn]. apply nul_app in Nn. destruct Nn as [Nw Nr].
  destruct (nonblank_hd w NE Fw) as (d & w' & Ew & Hd).
  unfold strtok.
  assert (HA : exists c, at_ (pre ++ (b ++ w ++ r) ++ [0%N]) (length pre) = Ok c /\ c <> 0%N).
  { destruct b as [|x b].
    - subst w. cbn [app]. rewrite at_app. exists d. split; [reflexivity|]. inversion Nw; assumption.
    - cbn [app]. rewrite at_app. exists x. split; [reflexivity|]. inversion Nb; assumption. }
  destruct HA as (c0 & -> & Hc0). cbn [rbind]. rewrite (proj2 (N.eqb_neq _ _)) by assumption.
  rewrite skipn_pre.
  assert (Hsk : skip_blank ((b ++ w ++ r) ++ [0%N]) = Ok (length b)).
  { subst w. rewrite <- !app_assoc. cbn [app]. apply skip_blank_spec; auto. }
  rewrite Hsk. cbn [rbind]. cbv zeta. rewrite <- app_length.
  assert (Eb : pre ++ (b ++ w ++ r) ++ [0%N] = (pre ++ b) ++ w ++ r ++ [0%N]) by (rewrite <- !app_assoc; reflexivity).
  rewrite Eb.
  assert (HD : at_ ((pre ++ b) ++ w ++ r ++ [0%N]) (length (pre ++ b)) = Ok d) by (subst w; cbn [app]; apply at_app).
  rewrite HD. cbn [rbind]. assert (d <> 0%N) by (subst w; inversion Nw; assumption). rewrite (proj2 (N.eqb_neq _ _)) by assumption.
  rewrite skipn_pre. destruct r as [|c r'].
  - cbn [app]. rewrite tok_len_spec by auto. cbn [rbind]. rewrite <- app_length.
    replace ((pre ++ b) ++ w ++ [0%N]) with (((pre ++ b) ++ w) ++ 0%N :: []) by (rewrite <- !app_assoc; reflexivity).
    rewrite at_app. cbn [rbind N.eqb]. rewrite <- !app_assoc. reflexivity.
  - change ((c :: r') ++ [0%N]) with (c :: r' ++ [0%N]). rewrite tok_len_spec by auto. cbn [rbind]. rewrite <- app_length.
    replace ((pre ++ b) ++ w ++ c :: r' ++ [0%N]) with (((pre ++ b) ++ w) ++ c :: r' ++ [0%N]) by (rewrite <- !app_assoc; reflexivity).
    rewrite at_app. cbn [rbind]. assert (c <> 0%N) by (inversion Nr; assumption). rewrite (proj2 (N.eqb_neq _ _)) by assumption.
    rewrite put_app. f_equal. f_equal; [f_equal; rewrite <- !app_assoc; reflexivity|]. rewrite !app_length. cbn [length]. lia.
Qed.

(** The text that is left after a token, and where the token is. *)
Lemma fields_drop c r ws : is_blank c -> Fields (c :: r) ws -> Fields r ws.
Proof.
  intros Hc F. inversion F as [b Fb E|b w r' ws' Fb NE Fw Hr F' E1 E2]; subst.
  - constructor. inversion Fb; assumption.
  - destruct b as [|x b].
    + destruct w as [|d w]; [congruence|]. cbn [app] in E1. injection E1 as -> _. inversion Fw; contradiction.
    + cbn [app] in E1. injection E1 as _ <-. constructor; auto. inversion Fb; assumption.
Qed.
Lemma strtok_step pre rem w ws : Fields rem (w :: ws) -> no_nul rem ->
  exists p pre' rem' buf', strtok (pre ++ rem ++ [0%N]) (length pre) = Ok (Some p, buf', length pre') /\
    buf' = pre' ++ rem' ++ [0%N] /\ Fields rem' ws /\ no_nul rem' /\ length buf' = length (pre ++ rem ++ [0%N]) /\
    w <> [] /\ Forall (fun c => ~ is_blank c) w /\ no_nul w /\
    exists q, p = length q /\
      ((pre' = q ++ w /\ rem' = []) \/ pre' = q ++ w ++ [0%N]).
Proof.
  intros F Nn. inversion F as [|b w' r ws' Fb NE Fw Hr F' E1 E2]. subst w' ws' rem.
  pose proof Nn as Nn'. apply nul_app in Nn'. destruct Nn' as [Nb Nn']. apply nul_app in Nn'. destruct Nn' as [Nw Nr].
  rewrite strtok_some by assumption. destruct r as [|c r'].
  - exists (length (pre ++ b)), (pre ++ b ++ w), [], ((pre ++ b) ++ w ++ [0%N]).
    split; [reflexivity|]. split; [rewrite <- !app_assoc; reflexivity|]. split; [exact F'|]. split; [constructor|].
    split; [rewrite !app_length; cbn [length]; lia|]. repeat (split; [assumption|]).
    exists (pre ++ b). split; [reflexivity|]. left. split; [rewrite <- app_assoc|]; reflexivity.
  - exists (length (pre ++ b)), (pre ++ b ++ w ++ [0%N]), r', ((pre ++ b) ++ w ++ 0%N :: r' ++ [0%N]).
    split; [reflexivity|]. split; [rewrite <- !app_assoc; reflexivity|]. split; [eapply fields_drop; eauto|].
    split; [inversion Nr; assumption|].
    split; [rewrite !app_length; cbn [length]; rewrite !app_length; cbn [length]; lia|]. repeat (split; [assumption|]).
    exists (pre ++ b). split; [reflexivity|]. right. rewrite <- app_assoc. reflexivity.
Qed.
Lemma token_at q w pre' rem' : no_nul w -> ((pre' = q ++ w /\ rem' = []) \/ pre' = q ++ w ++ [0%N]) ->
  cstr (skipn (length q) (pre' ++ rem' ++ [0%N])) = Ok w.
Proof.
  intros Nw [[-> ->]| ->].
  - cbn [app]. rewrite <- app_assoc, skipn_pre. apply (cstr_spec w Nw []).
  - rewrite <- app_assoc, skipn_pre, <- app_assoc. cbn [app]. apply cstr_spec, Nw.
Qed.
Lemma field_step pre rem w ws : Fields rem (w :: ws) -> no_nul rem ->
  exists pre' rem' buf', next_field (pre ++ rem ++ [0%N]) (length pre) = Ok (w, buf', length pre') /\
    buf' = pre' ++ rem' ++ [0%N] /\ Fields rem' ws /\ no_nul rem' /\ length buf' = length (pre ++ rem ++ [0%N]).
Proof.
  intros F Nn. destruct (strtok_step pre rem w ws F Nn) as (p & pre' & rem' & buf' & E & Eb & F' & N' & L & NE & Fw & Nw & q & -> & Q).
  exists pre', rem', buf'. unfold next_field. rewrite E. cbn [rbind]. rewrite Eb, (token_at q w pre' rem' Nw Q). cbn [rbind].
  rewrite <- Eb. repeat split; auto.
Qed.
Lemma field_none pre rem : Fields rem [] -> no_nul rem -> next_field (pre ++ rem ++ [0%N]) (length pre) = Undef.
Proof.
  intros F Nn. inversion F; subst. destruct (strtok_none pre rem H Nn) as (e & E). unfold next_field. rewrite E. reflexivity.
Qed.

(** Fields of changed lines. *)
Lemma fields_space w r ws : w <> [] -> Forall (fun c => ~ is_blank c) w -> Fields r ws -> Fields (w ++ 32%N :: r) (w :: ws).
Proof.
  intros NE Fw F. apply (f_cons [] w (32%N :: r) ws); auto; [left; reflexivity|].
  inversion F as [b Fb E|b w' r' ws' Fb NE' Fw' Hr F' E1 E2]; subst.
  - constructor. constructor; [left; reflexivity|assumption].
  - apply (f_cons (32%N :: b) w' r' ws'); auto. constructor; [left; reflexivity|assumption].
Qed.
Lemma fields_one w : w <> [] -> Forall (fun c => ~ is_blank c) w -> Fields w [w].
Proof.
  intros NE Fw. pose proof (f_cons [] w [] [] (Forall_nil _) NE Fw I (f_nil [] (Forall_nil _))) as F. cbn [app] in F. rewrite app_nil_r in F. exact F.
Qed.
Lemma app_last {A} (x y : list A) a : y <> [] -> exists y', y = y' ++ [last y a] /\ x ++ y = (x ++ y') ++ [last y a].
Proof. intros NE. exists (removelast y). rewrite <- app_assoc, <- app_removelast_last by assumption. auto. Qed.
Lemma fields_chop l ws : Fields l ws -> forall x c, l = x ++ [c] -> is_blank c -> Fields x ws.
Proof.
  induction 1 as [b Fb|b w r ws Fb NE Fw Hr F IH]; intros x c E Hc.
  - subst b. constructor. apply Forall_app in Fb. tauto.
  - destruct r as [|d r].
    + exfalso. rewrite app_nil_r in E. destruct (app_last b w 0%N NE) as (w' & E1 & E2). rewrite E2 in E.
      apply app_inj_tail in E. destruct E as [_ E]. rewrite E1 in Fw. apply Forall_app in Fw. destruct Fw as [_ Fw]. inversion Fw; subst. contradiction.
    + destruct (app_last (b ++ w) (d :: r) 0%N ltac:(discriminate)) as (r' & E1 & E2). rewrite app_assoc, E2 in E.
      apply app_inj_tail in E. destruct E as [<- E]. rewrite <- app_assoc. constructor; auto.
      * destruct r' as [|d' r']; [exact I|]. cbn [app] in E1. injection E1 as Ed _. rewrite <- Ed. exact Hr.
      * apply (IH r' c); [rewrite E1, E; reflexivity|exact Hc].
Qed.
Lemma removelast_last {A} (l : list A) a : l <> [] -> l = removelast l ++ [last l a].
Proof. apply app_removelast_last. Qed.

Section Line.
  Variables numS numC : str -> Z.

  Lemma cased_eq (cs : bool) l : (if cs then l else map lower l) = cased cs l.
  Proof. reflexivity. Qed.

  (** The end of an STM line. *)
  Lemma text_end buf i w (x len : nat) pre' rem' q ws :
    buf = pre' ++ rem' ++ [0%N] -> i = length q -> no_nul w -> no_nul rem' -> w <> [] -> Forall (fun c => ~ is_blank c) w -> Fields rem' ws ->
    ((pre' = q ++ w /\ rem' = []) \/ pre' = q ++ w ++ [0%N]) -> S len = length buf ->
    exists t, (let* w := cstr (skipn i buf) in let x := (i + length w)%nat in
       cstr (skipn i (if Nat.ltb x len then put buf x 32%N else buf))) = Ok t /\
      (w :: ws = w :: ws -> Fields t (w :: ws)).
  Proof.
    intros Eb -> Nw Nr NE Fw F Q L.
    assert (C : cstr (skipn (length q) buf) = Ok w) by (rewrite Eb; apply token_at; assumption).
    rewrite C. cbn [rbind]. cbv zeta.
    destruct Q as [[-> ->]| ->].
    - assert (ws = []). { inversion F as [|b w' r ws' Fb NE' Fw' Hr F' E1 E2]; [reflexivity|]. destruct b; [|discriminate E1]. destruct w'; [congruence|discriminate E1]. }
      subst ws. cbn [app] in Eb.
      assert (HL : Nat.ltb (length q + length w) len = false). { apply Nat.ltb_ge. rewrite Eb, !app_length in L. cbn [length] in L. lia. }
      rewrite HL, Eb, <- app_assoc, skipn_pre. exists w. split; [apply (cstr_spec w Nw [])|]. intros _. apply fields_one; assumption.
    - assert (HL : Nat.ltb (length q + length w) len = true).
      { apply Nat.ltb_lt. rewrite Eb, !app_length in L. cbn [length] in L. lia. }
      rewrite HL, Eb. rewrite <- !app_assoc. cbn [app].
      replace (q ++ w ++ 0%N :: rem' ++ [0%N]) with ((q ++ w) ++ 0%N :: rem' ++ [0%N]) by (rewrite <- app_assoc; reflexivity).
      rewrite <- app_length, put_app, <- app_assoc, skipn_pre.
      exists (w ++ 32%N :: rem'). split.
      + replace (w ++ 32%N :: rem' ++ [0%N]) with ((w ++ 32%N :: rem') ++ 0%N :: []) by (rewrite <- app_assoc; reflexivity).
        apply cstr_spec. apply nul_app. split; [assumption|]. constructor; [discriminate|assumption].
      + intros _. apply fields_space; assumption.
  Qed.
  Lemma chop_newline t ws : Fields t ws ->
    Fields (if (0 <? Z.of_nat (length t) - 1)%Z && N.eqb (last t 0%N) 10 then removelast t else t) ws.
  Proof.
    intros F. destruct ((0 <? Z.of_nat (length t) - 1)%Z && N.eqb (last t 0%N) 10) eqn:E; [|exact F].
    apply andb_true_iff in E. destruct E as [E1 E2]. apply N.eqb_eq in E2.
    assert (NE : t <> []) by (intros ->; discriminate E1).
    apply (fields_chop _ _ F _ _ (removelast_last t 0%N NE)). rewrite E2. right; right; reflexivity.
  Qed.

  Lemma nul_lower l : no_nul l -> no_nul (map lower l).
  Proof.
    intros F. apply Forall_map. eapply Forall_impl; [|exact F]. intros c Hc. unfold lower.
    destruct ((65 <=? c) && (c <=? 90))%N; [|exact Hc]. intro E. apply N.eq_add_0 in E. destruct E as [-> _]. congruence.
  Qed.
  Lemma nul_cased cs l : no_nul l -> no_nul (cased cs l).
  Proof. destruct cs; [auto|apply nul_lower]. Qed.

  Lemma stm_line cs line ws : no_nul line -> Fields (cased cs line) ws ->
    match ws with
    | _ :: _ :: _ :: _ :: _ :: _ => exists s, parse_stm_line numS cs line = Ok s /\ stm_of numS ws s
    | _ => parse_stm_line numS cs line = Undef
    end.
  Proof.
    intros Nn F. apply (nul_cased cs) in Nn. unfold parse_stm_line. rewrite cased_eq. set (l := cased cs line) in *. clearbody l. clear line.
    cbv zeta. change (next_field (l ++ [0%N]) 0) with (next_field ([] ++ l ++ [0%N]) (@length N [])).
    assert (L0 : length ([] ++ l ++ [0%N]) = S (length l)) by (cbn [app]; rewrite app_length; cbn [length]; lia).
    destruct ws as [|f ws]; [rewrite field_none by assumption; reflexivity|].
    destruct (field_step [] l f ws F Nn) as (p1 & r1 & b1 & -> & E1 & F1 & N1 & L1). cbn [rbind].
    destruct ws as [|c ws]; [rewrite E1, field_none by assumption; reflexivity|].
    rewrite E1. destruct (field_step p1 r1 c ws F1 N1) as (p2 & r2 & b2 & -> & E2 & F2 & N2 & L2). cbn [rbind].
    destruct ws as [|k ws]; [rewrite E2, field_none by assumption; reflexivity|].
    rewrite E2. destruct (field_step p2 r2 k ws F2 N2) as (p3 & r3 & b3 & -> & E3 & F3 & N3 & L3). cbn [rbind].
    destruct ws as [|b ws]; [rewrite E3, field_none by assumption; reflexivity|].
    rewrite E3. destruct (field_step p3 r3 b ws F3 N3) as (p4 & r4 & b4 & -> & E4 & F4 & N4 & L4). cbn [rbind].
    destruct ws as [|e ws]; [rewrite E4, field_none by assumption; reflexivity|].
    rewrite E4. destruct (field_step p4 r4 e ws F4 N4) as (p5 & r5 & b5 & -> & E5 & F5 & N5 & L5). cbn [rbind].
    rewrite E5.
    assert (LL : length b5 = S (length l)) by congruence.
    destruct ws as [|w ws].
    - inversion F5; subst b0. destruct (strtok_none p5 r5 H N5) as (x & ->). cbn [rbind N.eqb].
      eexists. split; [reflexivity|]. cbn [stm_of l_seg file chan text s_t1 s_t2 l_spkr l_label].
      repeat split. constructor. constructor.
    - destruct (strtok_step p5 r5 w ws F5 N5) as (i & p6 & r6 & b6 & -> & E6 & F6 & N6 & L6 & NEw & Fw & Nw & q & -> & Q). cbn [rbind].
      assert (LL6 : S (length l) = length b6) by (rewrite L6, <- E5; congruence).
      assert (Hat : exists d w', w = d :: w' /\ at_ b6 (length q) = Ok d).
      { destruct w as [|d w']; [congruence|]. exists d, w'. split; [reflexivity|]. rewrite E6.
        destruct Q as [[-> ->]| ->]; rewrite <- !app_assoc; cbn [app]; apply at_app. }
      destruct Hat as (d & w' & Ew & Hat). rewrite Hat. cbn [rbind].
      destruct (N.eqb_spec d 60) as [Ed|Ed].
      + (* a label *)
        assert (C : cstr (skipn (length q) b6) = Ok w) by (rewrite E6; apply token_at; assumption).
        rewrite C. cbn [rbind]. clear C.
        destruct ws as [|v ws].
        * rewrite E6. inversion F6; subst b0. destruct (strtok_none p6 r6 H N6) as (x & ->). cbn [rbind].
          eexists. split; [reflexivity|]. cbn [stm_of l_seg file chan text s_t1 s_t2 l_spkr l_label]. subst w d.
          repeat split. constructor. constructor.
        * rewrite E6. destruct (strtok_step p6 r6 v ws F6 N6) as (i & p7 & r7 & b7 & -> & E7 & F7 & N7 & L7 & NEv & Fv & Nv & q' & -> & Q'). cbn [rbind].
          assert (LL7 : S (length l) = length b7) by (rewrite L7, <- E6; congruence).
          destruct (text_end b7 (length q') v 0 (length l) p7 r7 q' ws E7 eq_refl Nv N7 NEv Fv F7 Q' LL7) as (t & Ht & FT).
          cbv zeta in Ht. rewrite Ht. cbn [rbind]. eexists. split; [reflexivity|]. cbn [stm_of l_seg file chan text s_t1 s_t2 l_spkr l_label].
          subst w d. repeat split. apply chop_newline. apply FT. reflexivity.
      + (* no label *)
        cbn [rbind].
        destruct (text_end b6 (length q) w 0 (length l) p6 r6 q ws E6 eq_refl Nw N6 NEw Fw F6 Q LL6) as (t & Ht & FT).
        cbv zeta in Ht. rewrite Ht. cbn [rbind]. eexists. split; [reflexivity|]. cbn [stm_of l_seg file chan text s_t1 s_t2 l_spkr l_label].
        repeat (split; [reflexivity|]).
        subst w.
        destruct d as [|d]; [split; [reflexivity|apply chop_newline, FT; reflexivity]|].
        destruct d as [d|d|]; try (split; [reflexivity|apply chop_newline, FT; reflexivity]); destruct d as [d|d|]; try (split; [reflexivity|apply chop_newline, FT; reflexivity]);
        destruct d as [d|d|]; try (split; [reflexivity|apply chop_newline, FT; reflexivity]); destruct d as [d|d|]; try (split; [reflexivity|apply chop_newline, FT; reflexivity]);
        destruct d as [d|d|]; try (split; [reflexivity|apply chop_newline, FT; reflexivity]); destruct d as [d|d|]; try (split; [reflexivity|apply chop_newline, FT; reflexivity]).
        exfalso; apply Ed; reflexivity.
  Qed.
End Line.
