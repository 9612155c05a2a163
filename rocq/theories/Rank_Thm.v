(** C98: percentages and ranks of systems and speakers. *)
From Coq Require Import String.
From Coq Require Import List ZArith QArith NArith Lia Arith Bool Permutation Sorted.
From Verif Require Import Base Store_Model Order_Model Order_Spec Order_Thm Rank_Model Rank_Spec Rank_Proofs1 Rank_Proofs2 Rank_Proofs3.
Import ListNotations.
Local Open Scope nat_scope.

(** When all systems were scored on the same speakers in the same order, every cell of the table is the
    percentage of that speaker and system, the ranks over systems and over speakers are the mean ranks of the
    cell in its row and in its column, and systems and speakers are sorted by their sums, the best first. *)
Theorem C98_ranks qsort f names ss : qsort_contract qsort -> f <> Fother -> ss <> [] -> scored_on names ss ->
  exists r P, init_rank qsort f ss = Ok r /\ table_of f ss (length names) P /\
    ranked (best_first f) names (map y_title ss) P r.
Proof. intros H F N S. destruct (init_ok qsort f names ss H F N S) as (r & P & E & T & _ & R). exists r, P. auto. Qed.
Print Assumptions C98_ranks.

(** A rank is at least 1, at most the number of values, and better values have smaller ranks. *)
Theorem C98_rank_order o v x y : In x v -> In y v ->
  (1 <= rank_in o v x <= q (length v))%Q /\ ((x == y)%Q -> (rank_in o v x == rank_in o v y)%Q) /\
  (better o y x = true -> (rank_in o v x < rank_in o v y)%Q).
Proof.
  intros X Y.
  assert (CM : forall (g h : Q -> bool) l, (forall z, g z = true -> h z = true) -> length (filter g l) <= length (filter h l)).
  { intros g h l GH. induction l as [|z l IH]; [apply Nat.le_refl|]. cbn [filter]. destruct (g z) eqn:G.
    - rewrite (GH _ G). cbn [length]. lia.
    - destruct (h z); cbn [length]; lia. }
  assert (CO : forall (g h : Q -> bool) l, (forall z, g z = true -> h z = false) -> length (filter g l) + length (filter h l) <= length l).
  { intros g h l GH. induction l as [|z l IH]; [apply Nat.le_refl|]. cbn [filter length]. destruct (g z) eqn:G.
    - rewrite (GH _ G). cbn [length]. lia.
    - destruct (h z); cbn [length]; lia. }
  assert (CP : forall z l, In z l -> 1 <= length (filter (Qeq_bool z) l)).
  { intros z l I. destruct (filter (Qeq_bool z) l) as [|w m] eqn:E; [|cbn; lia]. exfalso.
    assert (In z []) as []. rewrite <- E. apply filter_In. split; [exact I|]. apply Qeq_bool_refl. }
  assert (BE : forall a b z, better o a z = true -> Qeq_bool b z = true -> (a == b)%Q -> False).
  { intros a b z B E AB. apply Qeq_bool_iff in E. unfold better in B. destruct o; apply negb_true_iff in B;
    (assert (C : forall s t : Q, (s == t)%Q -> Qle_bool s t = true) by (intros s t ->; apply Qle_bool_iff, Qle_refl));
    rewrite C in B; try discriminate; rewrite AB, E; reflexivity. }
  assert (EQ : forall n m, (q n + (q m + 1) / 2 == inject_Z (Z.of_nat (2 * n + m + 1)) / 2)%Q).
  { intros n m. unfold q. replace (Z.of_nat (2 * n + m + 1)) with (2 * Z.of_nat n + Z.of_nat m + 1)%Z by lia.
    rewrite !inject_Z_plus, inject_Z_mult. change (inject_Z 2) with 2%Q. change (inject_Z 1) with 1%Q. field. }
  unfold rank_in. split; [|split].
  - rewrite EQ. pose proof (CP x v X) as P1.
    assert (P2 : length (filter (better o x) v) + length (filter (Qeq_bool x) v) <= length v).
    { apply CO. intros z B. destruct (Qeq_bool x z) eqn:E; [|reflexivity]. exfalso. apply (BE x x z B E). reflexivity. }
    split.
    + apply Qle_shift_div_l; [reflexivity|]. change (1 * 2)%Q with (inject_Z 2). rewrite <- Zle_Qle. lia.
    + apply Qle_shift_div_r; [reflexivity|]. unfold q. change 2%Q with (inject_Z 2). rewrite <- inject_Z_mult, <- Zle_Qle. lia.
  - intro E. assert (F1 : forall z, better o x z = better o y z) by (intro z; unfold better; destruct o; rewrite E; reflexivity).
    assert (F2 : forall z, Qeq_bool x z = Qeq_bool y z).
    { intro z. destruct (Qeq_bool x z) eqn:A; destruct (Qeq_bool y z) eqn:B; try reflexivity.
      - apply Qeq_bool_iff in A. apply Qeq_bool_neq in B. exfalso. apply B. rewrite <- E. exact A.
      - apply Qeq_bool_iff in B. apply Qeq_bool_neq in A. exfalso. apply A. rewrite E. exact B. }
    rewrite (filter_ext _ _ F1 v), (filter_ext _ _ F2 v). reflexivity.
  - intro B. rewrite !EQ. unfold Qdiv. apply Qmult_lt_r; [reflexivity|]. rewrite <- Zlt_Qlt.
    assert (TR : length (filter (better o x) v) + length (filter (Qeq_bool x) v) <= length (filter (better o y) v)).
    { assert (D : forall l, length (filter (better o x) l) + length (filter (Qeq_bool x) l) <= length (filter (better o y) l)).
      { induction l as [|z l IH]; [apply Nat.le_refl|]. cbn [filter].
        assert (K : (better o x z = true -> better o y z = true) /\ (Qeq_bool x z = true -> better o y z = true /\ better o x z = false)).
        { assert (NB : forall s t : Q, negb (Qle_bool s t) = true <-> (t < s)%Q).
          { intros s t. rewrite negb_true_iff. split.
            - intro E. destruct (Qlt_le_dec t s) as [|L]; [assumption|]. apply Qle_bool_iff in L. congruence.
            - intro L. destruct (Qle_bool s t) eqn:E; [|reflexivity]. apply Qle_bool_iff in E. exfalso. apply (Qlt_not_le _ _ L E). }
          split.
          - unfold better in *. destruct o; intro Hz; apply NB in Hz; apply NB in B; apply NB; eauto using Qlt_trans.
          - intro E. split.
            + apply Qeq_bool_iff in E. unfold better in *. destruct o; apply NB in B; apply NB; rewrite <- E; exact B.
            + destruct (better o x z) eqn:BB; [|reflexivity]. exfalso. apply (BE x x z BB E). reflexivity. }
        destruct K as (K1 & K2). destruct (better o x z) eqn:E1; destruct (Qeq_bool x z) eqn:E2.
        - destruct (K2 eq_refl); discriminate.
        - rewrite (K1 eq_refl). cbn [length]. lia.
        - destruct (K2 eq_refl) as (-> & _). cbn [length]. lia.
        - destruct (better o y z); cbn [length]; lia. }
      apply D. }
    pose proof (CP x v X). pose proof (CP y v Y). lia.
Qed.
Print Assumptions C98_rank_order.

(** A system with fewer speakers than another: percentages that were never set are ranked. *)
Theorem C98_uneven_refuted qsort f ss s s' : qsort_contract qsort -> In s ss -> In s' ss ->
  length (y_grps s) < length (y_grps s') -> init_rank qsort f ss = Undef.
Proof.
  intros H I I' L. apply (uneven_undef qsort f ss s H I). pose proof (num_blk_ge ss) as G. rewrite Forall_forall in G.
  specialize (G s' I'). lia.
Qed.
Print Assumptions C98_uneven_refuted.

Definition mk (n : string) (c s d i : nat) : speaker := {| k_name := bytes n; k_corr := c; k_sub := s; k_del := d; k_ins := i |}.
Definition sys_a : system := {| y_title := bytes "one"; y_grps := [mk "ann" 8 1 1 0; mk "bob" 5 5 0 0] |}.
Definition sys_b : system := {| y_title := bytes "two"; y_grps := [mk "bob" 4 4 2 0; mk "ann" 9 1 0 1] |}.

(** The same speakers in another order: speakers are paired by position, so the row of a speaker holds
    the percentage of another one. *)
Theorem C98_unpaired_refuted : exists ss s k r x, qsort_contract isort /\ nth_error ss 1 = Some s /\ In k (y_grps s) /\
  init_rank isort FE ss = Ok r /\ nth_error (r_blk_name r) 0 = Some (Some (k_name k)) /\ cell (r_pcts r) 0 1 = Ok x /\ ~ is_percentage FE k x.
Proof.
  exists [sys_a; sys_b], sys_b, (mk "ann" 9 1 0 1). eexists. eexists. split; [exact isort_contract|]. split; [reflexivity|].
  split; [right; left; reflexivity|]. split; [vm_compute; reflexivity|]. split; [vm_compute; reflexivity|]. split; [vm_compute; reflexivity|].
  cbn [is_percentage]. unfold rate. intro E. vm_compute in E. discriminate.
Qed.
Print Assumptions C98_unpaired_refuted.

Definition sys_c : system := {| y_title := bytes "two"; y_grps := [mk "ann" 9 1 0 1; mk "bob" 4 4 2 0] |}.
Definition sys_d : system := {| y_title := bytes "three"; y_grps := [mk "ann" 8 2 0 0; mk "bob" 9 1 0 0] |}.
Example C98_example : scored_on [bytes "ann"; bytes "bob"] [sys_a; sys_c; sys_d] /\
  (match init_rank isort FE [sys_a; sys_c; sys_d] with
   | Ok r => (map (map Qred) (r_trt_ranks r), r_blk_srt_ind r, r_trt_srt_ind r)
   | _ => ([], [], []) end) = ([[2; 2; 2]%Q; [2; 3; 1]%Q], [2; 0; 1], [0; 1]).
Proof. split; [repeat constructor|vm_compute; reflexivity]. Qed.
Example C98_order_example : In (20 # 1)%Q [20 # 1; 50 # 1; 20 # 1]%Q /\ better Increasing (50 # 1) (20 # 1) = true /\
  Qred (rank_in Increasing [20 # 1; 50 # 1; 20 # 1]%Q (20 # 1)) = (3 # 2)%Q.
Proof. split; [left; reflexivity|split; reflexivity]. Qed.
