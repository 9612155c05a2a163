(** Exchanging the systems, the segments of all sentences, and the statistic. *)
From Coq Require Import List Arith ZArith NArith QArith Bool Lia Lqa.
From Verif Require Import Base NetDp_Model Word_Model Order_Model Path_Model Path_Spec Binom_Model SysTest_Model Scores_Model Scores_Spec Scores_Proofs Scores_Proofs2 Mapsswe_Model Mapsswe_Spec Mapsswe_Proofs.
Import ListNotations.
Local Open Scope res_scope.
Local Open Scope nat_scope.

(** * exchanging the paths *)
Section Swap.
Variable differ : nat -> nat -> bool.
Variables l1 l2 : list wstep.
Variable mg : nat.
Hypothesis W1 : Forall well_formed_step l1.
Hypothesis W2 : Forall well_formed_step l2.
Hypothesis Mg : 1 <= mg.
Let differ' i j := differ j i.

Definition swap_state (s : loop_state) : loop_state :=
  {| ls_ind1 := ls_ind2 s; ls_ind2 := ls_ind1 s; ls_eog1 := ls_eog2 s; ls_eog2 := ls_eog1 s; ls_st := ls_st s; ls_good := ls_good s;
     ls_segs := map swap_seg (ls_segs s) |}.

Lemma count_seg_swap b1 b2 to1 to2 segs : to1 <= length l1 -> to2 <= length l2 ->
  exists segs', count_seg l1 l2 b1 b2 to1 to2 segs = Ok segs' /\ count_seg l2 l1 b2 b1 to2 to1 (map swap_seg segs) = Ok (map swap_seg segs').
Proof.
  intros L1 L2. unfold count_seg. rewrite !clip. rewrite !seg_count_range by assumption. cbn [rbind]. rewrite !Nat.add_0_l.
  set (e1 := ne l1 _ _). set (e2 := ne l2 _ _). rewrite (andb_comm (e2 =? 0)). destruct ((e1 =? 0) && (e2 =? 0)).
  - exists segs. auto.
  - eexists. split; [reflexivity|]. rewrite map_app. f_equal. cbn [map]. unfold swap_seg at 2. cbn [sg_beg1 sg_end1 sg_beg2 sg_end2 sg_ref sg_err1 sg_err2].
    rewrite (Nat.add_comm (nr l2 _ _)). reflexivity.
Qed.

Lemma same_eval_sym a b : same_eval a b = same_eval b a.
Proof. destruct a, b; reflexivity. Qed.
Lemma bad_pair_swap i1 i2 : bad_pair differ' l2 l1 i2 i1 = bad_pair differ l1 l2 i1 i2.
Proof.
  unfold bad_pair, differ'. destruct (eval_at l1 i1), (eval_at l2 i2); try reflexivity. rewrite same_eval_sym. reflexivity.
Qed.

Lemma transition_swap i1 i2 s : i1 <= length l1 -> i2 <= length l2 ->
  exists s', transition l1 l2 mg i1 i2 s = Ok s' /\ transition l2 l1 mg i2 i1 (swap_state s) = Ok (swap_state s').
Proof.
  intros L1 L2. unfold transition. cbv zeta. cbn [swap_state ls_st ls_good ls_segs ls_eog1 ls_eog2]. rewrite (andb_comm (is_corr l2 i2)).
  destruct (is_corr l1 i1 && is_corr l2 i2) eqn:B.
  - apply andb_true_iff in B. destruct B as [B1 B2]. apply corr_lt in B1. apply corr_lt in B2.
    destruct (count_seg_swap (begin_of mg (ls_eog1 s)) (begin_of mg (ls_eog2 s)) (i1 + 1) (i2 + 1) (ls_segs s)) as (segs' & E1 & E2); [lia|lia|].
    rewrite E1, E2. cbn [rbind]. destruct (ls_st s); [|destruct (1 =? mg)|destruct (ls_good s + 1 =? mg)]; eexists; split; reflexivity.
  - destruct (ls_st s); eexists; split; reflexivity.
Qed.

Lemma turn_swap s : ls_ind1 s <= length l1 -> ls_ind2 s <= length l2 ->
  exists s' i1 i2, turn differ l1 l2 mg s = Ok s' /\ turn differ' l2 l1 mg (swap_state s) = Ok (swap_state s')
    /\ ls_ind1 s' = (if i1 <? length l1 then i1 + 1 else i1) /\ ls_ind2 s' = (if i2 <? length l2 then i2 + 1 else i2)
    /\ ls_ind1 s <= i1 <= length l1 /\ ls_ind2 s <= i2 <= length l2
    /\ settled l1 i1 /\ settled l2 i2
    /\ (forall j x, ls_ind1 s <= j < i1 -> nth_error l1 j = Some x -> snd x = PIns)
    /\ (forall j x, ls_ind2 s <= j < i2 -> nth_error l2 j = Some x -> snd x = PIns)
    /\ (i1 = length l1 -> i2 = length l2 -> ls_eog1 s' = ls_eog1 s /\ ls_eog2 s' = ls_eog2 s /\ ls_segs s' = ls_segs s /\ ls_st s' = ME).
Proof.
  intros L1 L2. unfold turn. cbn [swap_state ls_ind1 ls_ind2 ls_st].
  destruct (skip_ins_ok l1 (length l1) (ls_ind1 s) (ls_st s)) as (i1 & st1 & E1 & B1 & Se1 & D1 & A1); [lia|lia|].
  destruct (skip_ins_ok l2 (length l2) (ls_ind2 s) (ls_st s)) as (i2 & st2 & E2 & B2 & Se2 & D2 & A2); [lia|lia|].
  assert (E2' : exists st3, skip_ins (length l2) l2 (ls_ind2 s) st1 = (i2, st3) /\ (st3 = if (i1 =? ls_ind1 s) && (i2 =? ls_ind2 s) then ls_st s else ME)).
  { destruct (skip_ins_ok l2 (length l2) (ls_ind2 s) st1) as (i2' & st3 & E3 & B3 & Se3 & D3 & A3); [lia|lia|].
    assert (i2' = i2).
    { destruct (Nat.lt_trichotomy i2' i2) as [Q|[Q|Q]]; [exfalso|exact Q|exfalso].
      - destruct (nth_error l2 i2') as [x|] eqn:X; [apply (Se3 x X); apply (A2 i2' x); [lia|exact X]|apply nth_error_None in X; lia].
      - destruct (nth_error l2 i2) as [x|] eqn:X; [apply (Se2 x X); apply (A3 i2 x); [lia|exact X]|apply nth_error_None in X; lia]. }
    subst i2'. exists st3. split; [exact E3|].
    destruct D3 as [[-> ->]|[Q ->]].
    - rewrite Nat.eqb_refl, andb_true_r. destruct D1 as [[-> ->]|[Q ->]]; [rewrite Nat.eqb_refl; reflexivity|].
      replace (i1 =? ls_ind1 s) with false by (symmetry; apply Nat.eqb_neq; lia). reflexivity.
    - replace (i2 =? ls_ind2 s) with false by (symmetry; apply Nat.eqb_neq; lia). rewrite andb_false_r. reflexivity. }
  assert (E1' : exists st3, skip_ins (length l1) l1 (ls_ind1 s) st2 = (i1, st3) /\ (st3 = if (i1 =? ls_ind1 s) && (i2 =? ls_ind2 s) then ls_st s else ME)).
  { destruct (skip_ins_ok l1 (length l1) (ls_ind1 s) st2) as (i1' & st3 & E3 & B3 & Se3 & D3 & A3); [lia|lia|].
    assert (i1' = i1).
    { destruct (Nat.lt_trichotomy i1' i1) as [Q|[Q|Q]]; [exfalso|exact Q|exfalso].
      - destruct (nth_error l1 i1') as [x|] eqn:X; [apply (Se3 x X); apply (A1 i1' x); [lia|exact X]|apply nth_error_None in X; lia].
      - destruct (nth_error l1 i1) as [x|] eqn:X; [apply (Se1 x X); apply (A3 i1 x); [lia|exact X]|apply nth_error_None in X; lia]. }
    subst i1'. exists st3. split; [exact E3|].
    destruct D3 as [[-> ->]|[Q ->]].
    - rewrite Nat.eqb_refl. cbn [andb]. destruct D2 as [[-> ->]|[Q ->]]; [rewrite Nat.eqb_refl; reflexivity|].
      replace (i2 =? ls_ind2 s) with false by (symmetry; apply Nat.eqb_neq; lia). reflexivity.
    - replace (i1 =? ls_ind1 s) with false by (symmetry; apply Nat.eqb_neq; lia). reflexivity. }
  rewrite E1, E2. destruct E2' as (st3 & -> & Q3), E1' as (st4 & -> & Q4). assert (st4 = st3) by congruence. clear Q4; subst st4.
  rewrite (resync_ok differ l1 l2 mg W1 W2 Mg i1 i2 st3 Se1 Se2). rewrite (resync_ok differ' l2 l1 mg W2 W1 Mg i2 i1 st3 Se2 Se1). rewrite bad_pair_swap. cbn [rbind].
  set (st := if bad_pair differ l1 l2 i1 i2 then ME else st3).
  set (s1 := {| ls_ind1 := i1; ls_ind2 := i2; ls_eog1 := ls_eog1 s; ls_eog2 := ls_eog2 s; ls_st := st; ls_good := ls_good s; ls_segs := ls_segs s |}).
  destruct (transition_swap i1 i2 s1) as (s2 & T1 & T2); [lia|lia|]. rewrite T1. unfold swap_state, s1 in T2. cbn [ls_ind1 ls_ind2 ls_eog1 ls_eog2 ls_st ls_good ls_segs] in T2.
  cbn [swap_state ls_eog1 ls_eog2 ls_good ls_segs]. rewrite T2. cbn [rbind].
  eexists. exists i1, i2. split; [reflexivity|]. split; [reflexivity|]. cbn [ls_ind1 ls_ind2 ls_eog1 ls_eog2 ls_st ls_segs].
  split; [reflexivity|]. split; [reflexivity|]. split; [lia|]. split; [lia|]. split; [exact Se1|]. split; [exact Se2|]. split; [exact A1|]. split; [exact A2|].
  intros H1 H2. subst i1 i2.
  assert (Nc : is_corr l1 (length l1) = false) by (destruct (is_corr l1 (length l1)) eqn:Q; [apply corr_lt in Q; lia|reflexivity]).
  unfold transition in T1. rewrite Nc in T1. cbn [andb ls_st s1] in T1.
  destruct st; injection T1 as <-; auto.
Qed.

(** the remaining words *)
Definition left (l : list wstep) (i : nat) : nat := refs (skipn i l).
Lemma skipn_nth (l : list wstep) i x : nth_error l i = Some x -> skipn i l = x :: skipn (i + 1) l.
Proof.
  revert i. induction l; intros [|i] X; try discriminate; cbn [nth_error skipn] in *; [injection X as ->; reflexivity|]. apply IHl in X. rewrite X.
  replace (S i + 1) with (S (i + 1)) by lia. reflexivity.
Qed.
Lemma left_ins (l : list wstep) : forall k i, i + k <= length l -> (forall j x, i <= j < i + k -> nth_error l j = Some x -> snd x = PIns) -> left l (i + k) = left l i.
Proof.
  induction k; intros i L H; [rewrite Nat.add_0_r; reflexivity|]. destruct (nth_error l i) as [x|] eqn:X; [|apply nth_error_None in X; lia].
  replace (i + S k) with ((i + 1) + k) by lia. rewrite IHk.
  - unfold left at 2. rewrite (skipn_nth l i x X). unfold refs. cbn [filter]. unfold has_ref at 1. rewrite (H i x); [reflexivity|lia|exact X].
  - lia.
  - intros j y Hj. apply H. lia.
Qed.
Lemma left_settled (l : list wstep) i : settled l i -> i <= length l -> left l i = left l (if i <? length l then i + 1 else i) + (if i <? length l then 1 else 0).
Proof.
  intros S L. destruct (Nat.ltb_spec i (length l)); [|lia]. destruct (nth_error l i) as [x|] eqn:X; [|apply nth_error_None in X; lia].
  unfold left at 1. rewrite (skipn_nth l i x X). unfold refs. cbn [filter]. unfold has_ref at 1. pose proof (S x X).
  unfold left, refs. destruct (snd x); try congruence; cbn [length]; lia.
Qed.
Lemma left_end (l : list wstep) : left l (length l) = 0.
Proof. unfold left. rewrite skipn_all. reflexivity. Qed.

Definition finish (a b : list wstep) (s : loop_state) : res (list seg) :=
  if match ls_st s with MB => ls_ind2 s <? length b | _ => true end
  then count_seg a b (begin_of mg (ls_eog1 s)) (begin_of mg (ls_eog2 s)) (length a) (length b) (ls_segs s)
  else Ok (ls_segs s).

(** the two loops in step *)
Definition all_done (s : loop_state) : bool := match ls_st s with MB => (ls_ind1 s =? length l1) && (ls_ind2 s =? length l2) | _ => false end.
Lemma loops : forall n s f1 f2, left l1 (ls_ind1 s) <= n -> left l1 (ls_ind1 s) = left l2 (ls_ind2 s) ->
  ls_ind1 s <= length l1 -> ls_ind2 s <= length l2 -> length l1 - ls_ind1 s < f1 -> length l2 - ls_ind2 s < f2 ->
  exists segs, (let* t := seg_loop differ l1 l2 mg f1 s in finish l1 l2 t) = Ok segs
            /\ (let* t := seg_loop differ' l2 l1 mg f2 (swap_state s) in finish l2 l1 t) = Ok (map swap_seg segs).
Proof.
  induction n; intros s f1 f2 Ln Le L1 L2 F1 F2.
  - (* only insertions are left *)
    destruct (turn_swap s L1 L2) as (s' & i1 & i2 & T1 & T2 & I1 & I2 & B1 & B2 & Se1 & Se2 & A1 & A2 & Fin).
    assert (Q1 : i1 = length l1).
    { assert (left l1 i1 = left l1 (ls_ind1 s)) by (replace i1 with (ls_ind1 s + (i1 - ls_ind1 s)) by lia; apply left_ins; [lia|intros j x Hj; apply A1; lia]).
      pose proof (left_settled l1 i1 Se1 ltac:(lia)) as Q. destruct (Nat.ltb_spec i1 (length l1)); lia. }
    assert (Q2 : i2 = length l2).
    { assert (left l2 i2 = left l2 (ls_ind2 s)) by (replace i2 with (ls_ind2 s + (i2 - ls_ind2 s)) by lia; apply left_ins; [lia|intros j x Hj; apply A2; lia]).
      pose proof (left_settled l2 i2 Se2 ltac:(lia)) as Q. destruct (Nat.ltb_spec i2 (length l2)); lia. }
    destruct (Fin Q1 Q2) as (G1 & G2 & G3 & G4).
    rewrite Q1, Nat.ltb_irrefl in I1. rewrite Q2, Nat.ltb_irrefl in I2. clear Q1 Q2 Fin.
    destruct (count_seg_swap (begin_of mg (ls_eog1 s)) (begin_of mg (ls_eog2 s)) (length l1) (length l2) (ls_segs s)) as (segs' & E1 & E2); [lia|lia|].
    assert (R1 : (let* t := seg_loop differ l1 l2 mg f1 s in finish l1 l2 t) = if all_done s then Ok (ls_segs s) else Ok segs').
    { destruct f1 as [|f1]; [lia|]. cbn [seg_loop]. unfold all_done. destruct (Nat.ltb_spec (ls_ind1 s) (length l1)) as [Q|Q].
      - rewrite T1. cbn [rbind]. destruct f1 as [|f1]; [lia|]. cbn [seg_loop]. rewrite I1, Nat.ltb_irrefl. cbn [rbind]. unfold finish.
        rewrite G4, G1, G2, G3, E1. replace (ls_ind1 s =? length l1) with false by (symmetry; apply Nat.eqb_neq; lia). cbn [andb]. destruct (ls_st s); reflexivity.
      - cbn [rbind]. unfold finish. rewrite E1. replace (ls_ind1 s =? length l1) with true by (symmetry; apply Nat.eqb_eq; lia). cbn [andb].
        destruct (ls_st s); try reflexivity. destruct (Nat.ltb_spec (ls_ind2 s) (length l2)), (Nat.eqb_spec (ls_ind2 s) (length l2)); try lia; reflexivity. }
    assert (R2 : (let* t := seg_loop differ' l2 l1 mg f2 (swap_state s) in finish l2 l1 t) = if all_done s then Ok (map swap_seg (ls_segs s)) else Ok (map swap_seg segs')).
    { destruct f2 as [|f2]; [lia|]. cbn [seg_loop]. unfold all_done. unfold swap_state at 1. cbn [ls_ind1]. destruct (Nat.ltb_spec (ls_ind2 s) (length l2)) as [Q|Q].
      - rewrite T2. cbn [rbind]. destruct f2 as [|f2]; [lia|]. cbn [seg_loop]. unfold swap_state at 1. cbn [ls_ind1]. rewrite I2, Nat.ltb_irrefl. cbn [rbind]. unfold finish, swap_state. cbn [ls_st ls_ind2 ls_segs ls_eog1 ls_eog2].
        rewrite G4, G1, G2, G3, E2. replace (ls_ind2 s =? length l2) with false by (symmetry; apply Nat.eqb_neq; lia). rewrite andb_false_r. destruct (ls_st s); reflexivity.
      - cbn [rbind]. unfold finish, swap_state. cbn [ls_st ls_ind2 ls_segs ls_eog1 ls_eog2]. rewrite E2. replace (ls_ind2 s =? length l2) with true by (symmetry; apply Nat.eqb_eq; lia). rewrite andb_true_r.
        destruct (ls_st s); try reflexivity. destruct (Nat.ltb_spec (ls_ind1 s) (length l1)), (Nat.eqb_spec (ls_ind1 s) (length l1)); try lia; reflexivity. }
    rewrite R1, R2. destruct (all_done s); eexists; split; reflexivity.
  - destruct (Nat.eq_dec (left l1 (ls_ind1 s)) 0) as [Z|Z]. { apply IHn; auto; lia. }
    assert (P1 : ls_ind1 s < length l1). { destruct (Nat.eq_dec (ls_ind1 s) (length l1)) as [Q|]; [rewrite Q, left_end in Z; lia|lia]. }
    assert (P2 : ls_ind2 s < length l2). { destruct (Nat.eq_dec (ls_ind2 s) (length l2)) as [Q|]; [rewrite Le, Q, left_end in Z; lia|lia]. }
    destruct (turn_swap s L1 L2) as (s' & i1 & i2 & T1 & T2 & I1 & I2 & B1 & B2 & Se1 & Se2 & A1 & A2 & _).
    assert (K1 : left l1 i1 = left l1 (ls_ind1 s)) by (replace i1 with (ls_ind1 s + (i1 - ls_ind1 s)) by lia; apply left_ins; [lia|intros j x Hj; apply A1; lia]).
    assert (K2 : left l2 i2 = left l2 (ls_ind2 s)) by (replace i2 with (ls_ind2 s + (i2 - ls_ind2 s)) by lia; apply left_ins; [lia|intros j x Hj; apply A2; lia]).
    pose proof (left_settled l1 i1 Se1 ltac:(lia)) as J1. pose proof (left_settled l2 i2 Se2 ltac:(lia)) as J2. rewrite <- I1 in J1. rewrite <- I2 in J2.
    assert (Q1 : i1 < length l1). { destruct (Nat.eq_dec i1 (length l1)) as [Q|]; [rewrite Q, left_end in K1; lia|lia]. }
    assert (Q2 : i2 < length l2). { destruct (Nat.eq_dec i2 (length l2)) as [Q|]; [rewrite Q, left_end in K2; lia|lia]. }
    pose proof Q1 as Q1'. pose proof Q2 as Q2'. apply Nat.ltb_lt in Q1'. apply Nat.ltb_lt in Q2'. rewrite Q1' in I1, J1. rewrite Q2' in I2, J2.
    destruct f1 as [|f1]; [lia|]. destruct f2 as [|f2]; [lia|]. cbn [seg_loop]. unfold swap_state at 1. cbn [ls_ind1].
    pose proof P1 as P1'. pose proof P2 as P2'. apply Nat.ltb_lt in P1'. apply Nat.ltb_lt in P2'. rewrite P1', P2', T1, T2. cbn [rbind].
    apply IHn; lia.
Qed.

Lemma test_swap segs0 : refs l1 = refs l2 -> exists segs, test_comp_sents differ l1 l2 mg segs0 = Ok segs
  /\ test_comp_sents differ' l2 l1 mg (map swap_seg segs0) = Ok (map swap_seg segs).
Proof.
  intros H. unfold test_comp_sents.
  destruct (loops (left l1 0) {| ls_ind1 := 0; ls_ind2 := 0; ls_eog1 := 0; ls_eog2 := 0; ls_st := MB; ls_good := 0; ls_segs := segs0 |} (S (length l1)) (S (length l2)))
    as (segs & E1 & E2); cbn [ls_ind1 ls_ind2]; auto; try lia.
  exists segs. split; [exact E1|exact E2].
Qed.
End Swap.
