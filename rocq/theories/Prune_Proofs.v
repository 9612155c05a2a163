From Coq Require Import List ZArith Arith Bool Lia.
From Verif Require Import Base Matrix_Model Graph_Model Graph_Spec Prune_Spec.
Import ListNotations.
Open Scope res_scope.
Local Open Scope Z_scope.

Section Prune.
Variable g : graph.
Let e := g_env g.
Let cfg := g_cfg g.

Definition far1 (cb ce : Z) (u : nat) : Prop :=
  cb < span_begin e u /\
  cf_prune_thr cfg <
    (if ce <? span_begin e u then span_begin e u - ce
     else if span_end e u <? cb then cb - span_end e u else 0).

Lemma prune_loop_false : forall chg cb ce toks i,
  prune_loop g chg cb ce i toks = false <->
  exists k u, (i + k)%nat <> chg /\ nth_error toks k = Some (Some u) /\ span_known e u /\
    far1 cb ce u /\
    forall k', (k' < k)%nat -> (i + k')%nat <> chg ->
      exists u', nth_error toks k' = Some (Some u') /\ span_known e u'.
Proof.
  intros chg cb ce toks. induction toks as [|ot toks IH]; intros i; cbn [prune_loop].
  - split; [discriminate|]. intros (k & u & _ & H & _). destruct k; discriminate.
  - assert (Hskip : (Nat.eqb i chg = true \/ (exists u0, ot = Some u0 /\ span_known e u0 /\ ~ far1 cb ce u0)) ->
      (prune_loop g chg cb ce (S i) toks = false <->
      exists k u, (i + k)%nat <> chg /\ nth_error (ot :: toks) k = Some (Some u) /\ span_known e u /\
        far1 cb ce u /\
        forall k', (k' < k)%nat -> (i + k')%nat <> chg ->
          exists u', nth_error (ot :: toks) k' = Some (Some u') /\ span_known e u')).
    { intros Hc. rewrite IH. split.
      - intros (k & u & H1 & H2 & H3 & H4 & H5). exists (S k), u. repeat split; auto; try lia; try apply H3; try apply H4.
        intros [|k'] Hk' Hne.
        + destruct Hc as [Hc|(u0 & -> & Hk0 & _)]; [apply Nat.eqb_eq in Hc; lia|]. exists u0. auto.
        + simpl. apply H5; lia.
      - intros ([|k] & u & H1 & H2 & H3 & H4 & H5).
        + exfalso. destruct Hc as [Hc|(u0 & -> & _ & Hc)]; [apply Nat.eqb_eq in Hc; lia|].
          simpl in H2. injection H2 as ->. contradiction.
        + exists k, u. repeat split; auto; try lia; try apply H3; try apply H4.
          intros k' Hk' Hne. apply (H5 (S k')); lia. }
    destruct (Nat.eqb i chg) eqn:Ei; [apply Hskip; now left|].
    apply Nat.eqb_neq in Ei.
    assert (Hstop : (forall u, ot = Some u -> ~ span_known e u) ->
      (true = false <->
      exists k u, (i + k)%nat <> chg /\ nth_error (ot :: toks) k = Some (Some u) /\ span_known e u /\
        far1 cb ce u /\
        forall k', (k' < k)%nat -> (i + k')%nat <> chg ->
          exists u', nth_error (ot :: toks) k' = Some (Some u') /\ span_known e u')).
    { intros Hc. split; [discriminate|]. intros ([|k] & u & H1 & H2 & H3 & H4 & H5).
      - simpl in H2. injection H2 as H2. exfalso. eapply Hc; eassumption.
      - destruct (H5 O) as (u' & Hu' & Hk'); [lia|lia|]. simpl in Hu'. injection Hu' as Hu'.
        exfalso. eapply Hc; eassumption. }
    destruct ot as [t|]; [|apply Hstop; intros u H; discriminate].
    change (begin_of g t) with (span_begin e t). change (end_of g t) with (span_end e t).
    destruct (Z.ltb_spec (span_begin e t) 0) as [Hb|Hb].
    { apply Hstop. intros u Hu [H1 H2]. injection Hu as ->. lia. }
    destruct (Z.ltb_spec (span_end e t) 0) as [He|He].
    { apply Hstop. intros u Hu [H1 H2]. injection Hu as ->. lia. }
    destruct (Z.ltb_spec cb (span_begin e t)) as [Hcb|Hcb].
    + cbn zeta.
      destruct (Z.ltb_spec (cf_prune_thr (g_cfg g))
       (if ce <? span_begin e t then span_begin e t - ce
        else if span_end e t <? cb then cb - span_end e t else 0)) as [Hf|Hf].
      * split; [|reflexivity]. intros _. exists O, t. rewrite Nat.add_0_r. repeat split; auto; try lia.
      * apply Hskip. right. exists t. split; [reflexivity|]. split; [split; lia|].
        intros [_ H]. unfold cfg in H. lia.
    + apply Hskip. right. exists t. split; [reflexivity|]. split; [split; lia|]. intros [H _]. lia.
Qed.

Lemma validate_single : forall cur prev i t,
  changed cur prev = [i] -> tok_at g cur i = Some t ->
  exists b, validate g cur prev = Ok b /\
    (b = false <-> single_far g (current_words g cur) i t).
Proof.
  intros cur prev i t Hc Ht. unfold validate.
  change (g_env g) with e. change (g_cfg g) with cfg.
  assert (Hno : cf_prune cfg = false -> true = false <-> single_far g (current_words g cur) i t).
  { intros H. split; [discriminate|]. intros (H1 & _). unfold cfg in H. congruence. }
  destruct (cf_prune cfg) eqn:Ep; cbn [negb andb].
  2:{ destruct (cf_word cfg); cbn [negb]; [rewrite Hc|]; exists true; auto. }
  rewrite Hc, Ht.
  assert (Hseg : ~ segment_timed e t -> true = false <-> single_far g (current_words g cur) i t).
  { intros H. split; [discriminate|]. intros (_ & H1 & _). contradiction. }
  destruct (Z.ltb_spec (te_start e t) 0) as [H1|H1]; cbn [negb].
  2:{ exists true. split; [reflexivity|]. apply Hseg. intros (Hx & _). lia. }
  destruct (Z.ltb_spec (te_segstart e t) 0) as [H2|H2].
  { exists true. split; [reflexivity|]. apply Hseg. intros (_ & _ & Hx & _). lia. }
  destruct (Z.ltb_spec (te_end e t) 0) as [H3|H3]; cbn [negb].
  2:{ exists true. split; [reflexivity|]. apply Hseg. intros (_ & Hx & _). lia. }
  destruct (Z.ltb_spec (te_segend e t) 0) as [H4|H4].
  { exists true. split; [reflexivity|]. apply Hseg. intros (_ & _ & _ & Hx). lia. }
  eexists. split; [reflexivity|]. rewrite prune_loop_false.
  unfold single_far. change (map (tok_at g cur) (seq 0 (length (g_dims g)))) with (current_words g cur).
  split.
  - intros (k & u & Ha & Hb & Hk & [Hf1 Hf2] & Hrest). split; [exact Ep|]. split; [repeat split; assumption|].
    exists k, u. split; [exact Ha|]. split; [exact Hb|]. split; [exact Hk|]. split; [exact Hf1|].
    split; [exact Hf2|exact Hrest].
  - intros (_ & _ & k & u & Ha & Hb & Hk & Hf1 & Hf2 & Hrest). exists k, u.
    split; [exact Ha|]. split; [exact Hb|]. split; [exact Hk|]. split; [split; assumption|exact Hrest].
Qed.

Lemma validate_pair : forall cur prev i j h r,
  changed cur prev = [i; j] -> tok_at g cur i = Some h -> tok_at g cur j = Some r ->
  exists b, validate g cur prev = Ok b /\ (b = false <-> pair_far g h r).
Proof.
  intros cur prev i j h r Hc Hh Hr. unfold validate.
  change (g_env g) with e. change (g_cfg g) with cfg.
  assert (Hno : cf_word cfg = false -> true = false <-> pair_far g h r).
  { intros H. split; [discriminate|]. intros (H1 & _). unfold cfg in H. congruence. }
  destruct (cf_word cfg) eqn:Ew.
  2:{ destruct (cf_prune cfg); cbn [negb andb]; [rewrite Hc|]; exists true; auto. }
  cbn [negb]. rewrite andb_false_r, Hc, Hh, Hr. cbn zeta.
  change (begin_of g h) with (span_begin e h). change (end_of g h) with (span_end e h).
  change (begin_of g r) with (span_begin e r). change (end_of g r) with (span_end e r).
  destruct (Z.ltb_spec (span_begin e h) 0) as [H1|H1]; cbn [orb].
  { exists true. split; [reflexivity|]. split; [discriminate|]. intros (_ & [Hx _] & _). unfold e in *. lia. }
  destruct (Z.ltb_spec (span_begin e r) 0) as [H2|H2]; cbn [orb].
  { exists true. split; [reflexivity|]. split; [discriminate|]. intros (_ & _ & [Hx _] & _). unfold e in *. lia. }
  destruct (Z.ltb_spec (span_end e h) 0) as [H3|H3]; cbn [orb].
  { exists true. split; [reflexivity|]. split; [discriminate|]. intros (_ & [_ Hx] & _). unfold e in *. lia. }
  destruct (Z.ltb_spec (span_end e r) 0) as [H4|H4].
  { exists true. split; [reflexivity|]. split; [discriminate|]. intros (_ & _ & [_ Hx] & _). unfold e in *. lia. }
  eexists. split; [reflexivity|]. rewrite Z.leb_gt. unfold pair_far, span_gap.
  change (g_env g) with e. change (g_cfg g) with cfg. rewrite Ew.
  assert (E : ((0 <=? span_begin e h) && (0 <=? span_begin e r) && (0 <=? span_end e h)
    && (0 <=? span_end e r))%bool = true).
  { rewrite !andb_true_iff, !Z.leb_le. auto. }
  rewrite E. clear E.
  destruct (Z.ltb_spec (span_end e h) (span_begin e r)) as [H5|H5].
  - rewrite Z.max_r by lia. split; [intros H; repeat split; auto|intros (_ & _ & _ & H); exact H].
  - destruct (Z.ltb_spec (span_end e r) (span_begin e h)) as [H6|H6].
    + rewrite Z.max_r by lia. split; [intros H; repeat split; auto|intros (_ & _ & _ & H); exact H].
    + rewrite Z.max_l by lia. split; [intros H; repeat split; auto|intros (_ & _ & _ & H); exact H].
Qed.
End Prune.

(** ** Ties in the back-trace *)
Section Tie.
Variable g : graph.
Variable m : array_matrix.
Variable cur : list nat.
Notation priced := (priced g m cur).

Definition pairing (q : list nat) : Prop := (2 <= length (changed cur q))%nat.

Lemma tie_loop : forall l dn bestcost best two p m',
  (forall q, In q (dn ++ l) -> exists w, priced q w /\ 0 <= w) ->
  (dn = [] /\ bestcost = -1 /\ best = None \/
   exists b, best = Some b /\ In b dn /\ priced b bestcost /\ 0 <= bestcost /\
     (two = true <-> pairing b) /\
     (forall q w, In q dn -> priced q w -> bestcost <= w /\ (w = bestcost -> pairing q -> pairing b))) ->
  best_prev_loop array_store g cur l bestcost best two m = Ok (p, m') ->
  m' = m /\ (p = None /\ dn ++ l = [] \/ exists b bw, p = Some b /\ In b (dn ++ l) /\ priced b bw /\
    forall q w, In q (dn ++ l) -> priced q w -> bw <= w /\ (w = bw -> pairing q -> pairing b)).
Proof.
  induction l as [|x l IH]; intros dn bestcost best two p m' Hall Hinv H; cbn [best_prev_loop] in H.
  - injection H as <- <-. split; [reflexivity|]. rewrite app_nil_r in *.
    destruct Hinv as [(H1 & _ & H3)|(b & H1 & H2 & H3 & _ & _ & H4)]; [left; auto|].
    right. exists b, bestcost. auto.
  - destruct (Hall x) as (wx & Hpx & Hwx); [apply in_or_app; right; now left|].
    pose proof Hpx as (v & tc & Hv & Htc & Ew).
    cbn [cs_get array_store] in H. rewrite Hv in H. cbn [rbind] in H. rewrite Htc in H. cbn [rbind] in H.
    cbn zeta in H. rewrite <- Ew in H.
    assert (Huniq : forall q w w', priced q w -> priced q w' -> w = w').
    { intros q w w' (a & b & Ha & Hb & Hab) (a' & b' & Ha' & Hb' & Hab'). congruence. }
    assert (Hsplit : (dn ++ [x]) ++ l = dn ++ x :: l) by (rewrite <- app_assoc; reflexivity).
    assert (Htake : forall best0 : option (list nat),
      (dn = [] \/ forall q w, In q dn -> priced q w -> wx < w \/ (wx = w /\ (pairing q -> pairing x))) ->
      best_prev_loop array_store g cur l wx (Some x) (2 <=? length (changed cur x))%nat m = Ok (p, m') ->
      m' = m /\ (p = None /\ dn ++ x :: l = [] \/ exists b bw, p = Some b /\ In b (dn ++ x :: l) /\ priced b bw /\
        forall q w, In q (dn ++ x :: l) -> priced q w -> bw <= w /\ (w = bw -> pairing q -> pairing b))).
    { intros _ Hd HL. rewrite <- Hsplit. rewrite <- Hsplit in Hall.
      apply (IH (dn ++ [x]) wx (Some x) (2 <=? length (changed cur x))%nat p m' Hall); [|exact HL].
      right. exists x. split; [reflexivity|]. split; [apply in_or_app; right; now left|].
      split; [exact Hpx|]. split; [exact Hwx|]. split; [unfold pairing; apply Nat.leb_le|].
      intros q w Hq Hw. apply in_app_or in Hq. destruct Hq as [Hq|[<-|[]]].
      - destruct Hd as [->|Hd]; [destruct Hq|]. destruct (Hd q w Hq Hw) as [Hlt|[-> Hp]]; [split; lia|].
        split; [lia|]. auto.
      - rewrite (Huniq _ _ _ Hw Hpx). split; [lia|auto]. }
    destruct Hinv as [(H1 & H2 & H3)|(b & H1 & H2 & H3 & H4 & H5 & H6)].
    + subst bestcost. rewrite Z.eqb_refl in H. apply (Htake best); [now left|exact H].
    + destruct (Z.eqb_spec bestcost (-1)); [lia|].
      destruct (Z.ltb_spec wx bestcost) as [Hlt|Hge].
      { apply (Htake best); [|exact H]. right. intros q w Hq Hw. left. destruct (H6 q w Hq Hw). lia. }
      destruct (Z.eqb wx bestcost && negb two && (2 <=? length (changed cur x))%nat) eqn:Et.
      { apply (Htake best); [|exact H]. right. intros q w Hq Hw.
        apply andb_prop in Et. destruct Et as [Et Et3]. apply andb_prop in Et. destruct Et as [Et1 Et2].
        apply Z.eqb_eq in Et1. apply Nat.leb_le in Et3. destruct (H6 q w Hq Hw) as [Hle _].
        destruct (Z.eq_dec wx w); [right; split; [assumption|intros _; exact Et3]|left; lia]. }
      rewrite <- Hsplit. rewrite <- Hsplit in Hall.
      apply (IH (dn ++ [x]) bestcost best two p m' Hall); [|exact H].
      right. exists b. split; [exact H1|]. split; [apply in_or_app; now left|]. split; [exact H3|].
      split; [exact H4|]. split; [exact H5|]. intros q w Hq Hw. apply in_app_or in Hq.
      destruct Hq as [Hq|[<-|[]]]; [apply (H6 q w Hq Hw)|].
      rewrite (Huniq _ _ _ Hw Hpx) in *. split; [lia|]. intros -> Hpr.
      apply H5. destruct two; [reflexivity|]. exfalso. rewrite Z.eqb_refl in Et. cbn [negb andb] in Et.
      apply Nat.leb_gt in Et. unfold pairing in Hpr. lia.
Qed.
End Tie.
