From Coq Require Import List QArith Arith Bool Lia Lqa Permutation Sorting Setoid.
From Verif Require Import Stats_Model Stats_Spec Stats_Proofs.
Import ListNotations.
Local Open Scope Q_scope.

(** C21: the sum, the mean and the size are those of the values, and the mean lies between two
    of the values, the smallest and the largest. *)
Theorem C21_mean : forall values, values <> [] -> exists s, compute values = Some s /\
  st_sum s == qtotal values /\ st_mean s == average values /\ st_size s = List.length values /\
  between (st_mean s) values.
Proof.
  intros values N. destruct (compute_some values N) as (s & E & A & B & C & _). exists s. do 4 (split; [assumption|]).
  pose proof (qsort_perm values) as P. pose proof (qsort_sorted values) as S.
  assert (NE : qsort values <> []) by (intro X; rewrite X in P; apply Permutation_nil in P; congruence).
  destruct (exists_last NE) as (l & b & EL).
  assert (HI : Forall (fun x => x <= b) values).
  { eapply Permutation_Forall; [exact P|]. assert (NB : nth_error (qsort values) (List.length l) = Some b) by (rewrite EL, nth_error_app2, Nat.sub_diag by lia; reflexivity).
    destruct (sorted_split _ _ _ S NB) as (l1 & l2 & E2 & L & F & _). rewrite EL in E2. apply app_inj_length in E2; [|lia].
    destruct E2 as [-> E2]. rewrite EL. apply Forall_app. split; [exact F|]. constructor; [apply Qle_refl|constructor]. }
  destruct (qsort values) as [|a r] eqn:Q; [congruence|].
  assert (LO : Forall (fun x => a <= x) values).
  { eapply Permutation_Forall; [exact P|]. inversion S; subst. constructor; [apply Qle_refl|assumption]. }
  assert (F : Forall (fun x => a <= x /\ x <= b) values) by (rewrite Forall_forall in *; intros x X; split; [apply LO|apply HI]; exact X).
  destruct (qtotal_bounds _ _ _ F) as [B1 B2]. pose proof (qlen_pos values N) as LP.
  exists a, b. split; [apply (Permutation_in _ P); left; reflexivity|]. split; [apply (Permutation_in _ P); rewrite EL; apply in_or_app; right; left; reflexivity|].
  split; [|split; [|exact F]].
  - rewrite B. unfold average. apply Qle_shift_div_l; assumption.
  - rewrite B. unfold average. apply Qle_shift_div_r; assumption.
Qed.
Print Assumptions C21_mean.

(** The median is half way between the two middle values; at most half of the values are
    below it and at most half above it. *)
Theorem C21_median : forall values, values <> [] -> exists s a b, compute values = Some s /\ in_middle (st_median s) values /\
  lower_median a values /\ upper_median b values /\ st_median s == (a + b) / 2.
Proof.
  intros values N. destruct (compute_some values N) as (s & E & _ & _ & _ & _ & _ & a & b & i & j & A & B & M & I & J).
  pose proof (qsort_perm values) as P. pose proof (qsort_sorted values) as SO. pose proof (Permutation_length P) as L.
  assert (BP : forall m, below m values = below m (qsort values)) by (intro m; symmetry; apply filter_perm, P).
  assert (AP : forall m, above m values = above m (qsort values)) by (intro m; symmetry; apply filter_perm, P).
  assert (IA : In a values) by (apply (Permutation_in _ P); eapply nth_error_In; exact A).
  assert (IB : In b values) by (apply (Permutation_in _ P); eapply nth_error_In; exact B).
  pose proof (below_le _ _ a a SO A (Qle_refl _)) as A1. pose proof (above_le _ _ a a SO A (Qle_refl _)) as A2.
  pose proof (below_le _ _ b b SO B (Qle_refl _)) as B1. pose proof (above_le _ _ b b SO B (Qle_refl _)) as B2.
  exists s. destruct (Nat.even (List.length values)) eqn:EV.
  - exists b, a. split; [exact E|]. apply Nat.even_spec in EV as [k K].
    assert (D : Nat.div2 (List.length values) = k) by (rewrite K; apply Nat.div2_double).
    assert (KP : (0 < k)%nat) by (destruct k; [|lia]; exfalso; destruct values; [congruence|discriminate]).
    assert (AB : b <= a).
    { destruct (sorted_split _ _ _ SO A) as (l1 & l2 & E1 & L1 & F1 & _). assert (LJ : (j < List.length l1)%nat) by lia.
      rewrite E1, nth_error_app1 in B by exact LJ. rewrite Forall_forall in F1. apply F1. eapply nth_error_In. exact B. }
    unfold in_middle, lower_median, upper_median. rewrite !BP, !AP, M. split; [split|].
    + assert (X : (below ((a + b) / 2) (qsort values) <= i)%nat). { apply (below_le _ _ a); [exact SO|exact A|]. apply Qle_shift_div_r; lra. }
      lia.
    + assert (X : (above ((a + b) / 2) (qsort values) + S j <= List.length (qsort values))%nat). { apply (above_le _ _ b); [exact SO|exact B|]. apply Qle_shift_div_l; lra. }
      lia.
    + split; [split; [exact IB|lia]|]. split; [split; [exact IA|lia]|]. field.
  - exists a, a. split; [exact E|].
    assert (OD : exists k, List.length values = (2 * k + 1)%nat).
    { apply Nat.odd_spec. unfold Nat.odd. rewrite EV. reflexivity. }
    destruct OD as [k K]. assert (D : Nat.div2 (List.length values) = k).
    { rewrite K. rewrite Nat.add_1_r. rewrite Nat.div2_succ_double. reflexivity. }
    unfold in_middle, lower_median, upper_median. rewrite !BP, !AP, M.
    split; [lia|]. split; [split; [exact IA|lia]|]. split; [split; [exact IA|lia]|]. field.
Qed.
Print Assumptions C21_median.

(** The value under the square root is the sample variance of the values; it is not negative,
    and zero only if all values are equal. *)
Theorem C21_variance : forall values, (2 <= List.length values)%nat -> exists s v, compute values = Some s /\
  st_variance s = Some v /\ v == sample_variance values /\ 0 <= v /\
  (v == 0 <-> forall x y, In x values -> In y values -> x == y).
Proof.
  intros values L. assert (N : values <> []) by (intros ->; cbn in L; lia).
  destruct (compute_some values N) as (s & E & _ & _ & _ & _ & V & _). destruct (V L) as (v & EV & Q). exists s, v.
  split; [exact E|]. split; [exact EV|]. split; [exact Q|].
  assert (P1 : 0 < qlen values - 1).
  { unfold qlen. assert (inject_Z 2 <= inject_Z (Z.of_nat (List.length values))) by (rewrite <- Zle_Qle; lia).
    change (inject_Z 2) with (2#1) in H. lra. }
  pose proof (qtotal_nonneg _ (squares_nonneg values (average values))) as SQ. split.
  - rewrite Q. unfold sample_variance. apply Qle_shift_div_l; [exact P1|]. rewrite Qmult_0_l. exact SQ.
  - rewrite Q. unfold sample_variance. split.
    + intros Z x y X Y. assert (Z' : qtotal (map (fun x => (x - average values) * (x - average values)) values) == 0).
      { setoid_replace (qtotal (map (fun x => (x - average values) * (x - average values)) values)) with
          (qtotal (map (fun x => (x - average values) * (x - average values)) values) / (qlen values - 1) * (qlen values - 1)) by (field; lra).
        rewrite Z. ring. }
      apply squares_zero in Z'. rewrite Forall_forall in Z'. rewrite (Z' x X), (Z' y Y). reflexivity.
    + intro H. destruct values as [|x0 l]; [congruence|].
      assert (AV : average (x0 :: l) == x0).
      { unfold average. assert (F : Forall (fun x => x0 <= x /\ x <= x0) (x0 :: l)).
        { apply Forall_forall. intros x X. rewrite (H x x0 X (or_introl eq_refl)). split; apply Qle_refl. }
        destruct (qtotal_bounds _ _ _ F) as [B1 B2]. pose proof (qlen_pos (x0 :: l) N) as LP.
        assert (EQ : qtotal (x0 :: l) == x0 * qlen (x0 :: l)) by (apply Qle_antisym; assumption). rewrite EQ. field. lra. }
      assert (Z : qtotal (map (fun x => (x - average (x0 :: l)) * (x - average (x0 :: l))) (x0 :: l)) == 0).
      { clear Q SQ. remember (average (x0 :: l)) as m eqn:EM. clear EM. assert (G : forall x, In x (x0 :: l) -> x == m).
        { intros x X. rewrite AV. apply H; [exact X|left; reflexivity]. }
        clear - G. induction (x0 :: l) as [|y r IH]; [reflexivity|]. cbn [map qtotal fold_right].
        fold (qtotal (map (fun x => (x - m) * (x - m)) r)). rewrite IH by (intros; apply G; right; assumption). rewrite (G y (or_introl eq_refl)). ring. }
      rewrite Z. unfold Qdiv. ring.
Qed.
Print Assumptions C21_variance.

(** The results do not depend on the order of the values. *)
Theorem C21_order : forall v1 v2, Permutation v1 v2 -> exists s1 s2, compute v1 = Some s1 /\ compute v2 = Some s2 /\
  st_sum s1 == st_sum s2 /\ st_mean s1 == st_mean s2 /\ st_median s1 == st_median s2 /\ st_size s1 = st_size s2 /\
  match st_variance s1, st_variance s2 with Some a, Some b => a == b | None, None => True | _, _ => False end.
Proof.
  intros v1 v2 P. destruct v1 as [|x1 l1] eqn:E1.
  { apply Permutation_nil in P. subst. exists {| st_sum := 0; st_mean := 0; st_variance := Some 0; st_median := 0; st_size := 0 |}.
    exists {| st_sum := 0; st_mean := 0; st_variance := Some 0; st_median := 0; st_size := 0 |}. cbn. repeat split; reflexivity. }
  rewrite <- E1 in *. assert (N1 : v1 <> []) by (rewrite E1; discriminate). clear E1.
  assert (N2 : v2 <> []) by (intros ->; apply Permutation_sym, Permutation_nil in P; congruence).
  pose proof (Permutation_length P) as L.
  destruct (compute_some v1 N1) as (s1 & C1 & A1 & B1 & D1 & V1 & W1 & a1 & b1 & i1 & j1 & X1 & Y1 & M1 & I1 & J1).
  destruct (compute_some v2 N2) as (s2 & C2 & A2 & B2 & D2 & V2 & W2 & a2 & b2 & i2 & j2 & X2 & Y2 & M2 & I2 & J2).
  exists s1, s2. split; [exact C1|]. split; [exact C2|]. rewrite A1, A2, B1, B2, D1, D2, M1, M2.
  pose proof (qtotal_perm _ _ P) as T. assert (AV : average v1 == average v2).
  { unfold average, qlen. rewrite L, T. reflexivity. }
  split; [exact T|]. split; [exact AV|].
  rewrite <- L in I2, J2, V2, W2. rewrite <- I1 in I2. subst i2. rewrite <- J1 in J2. subst j2.
  pose proof (pos_unique _ _ _ _ _ P X1 X2) as PA. pose proof (pos_unique _ _ _ _ _ P Y1 Y2) as PB.
  split; [rewrite <- L; destruct (Nat.even (List.length v1)); [rewrite PA, PB; reflexivity|exact PA]|]. split; [exact L|].
  destruct (le_lt_dec 2 (List.length v1)) as [G|G].
  - destruct (W1 G) as (w1 & -> & Q1). destruct (W2 G) as (w2 & -> & Q2). rewrite Q1, Q2. unfold sample_variance, qlen. rewrite L.
    assert (S : qtotal (map (fun x => (x - average v1) * (x - average v1)) v1) == qtotal (map (fun x => (x - average v2) * (x - average v2)) v2)).
    { rewrite !deviations, T, AV. rewrite (qtotal_perm _ _ (Permutation_map (fun x => x * x) P)). unfold qlen. rewrite L. reflexivity. }
    rewrite S. reflexivity.
  - assert (K : List.length v1 = 1%nat). { destruct v1; [congruence|]. cbn in *. lia. }
    rewrite (V1 K), (V2 K). exact I.
Qed.
Print Assumptions C21_order.

(** One value has no standard deviation: the code divides zero by zero. *)
Theorem C21_deviation_refuted : ~ forall values, values <> [] -> exists s v, compute values = Some s /\ st_variance s = Some v.
Proof. intro H. destruct (H [3#1]) as (s & v & E & V); [discriminate|]. vm_compute in E. injection E as <-. discriminate. Qed.
Print Assumptions C21_deviation_refuted.

Example stats_case : exists s, compute [7#1; 1#1; 4#1; 2#1] = Some s /\ st_sum s == 14#1 /\ st_mean s == 7#2 /\ st_median s == 3#1 /\
  (exists v, st_variance s = Some v /\ v == 7#1) /\ get true (st_mean s) == 7#2 /\ get true 0 == 1.
Proof. eexists. split; [vm_compute; reflexivity|]. repeat split. eexists. split; reflexivity. Qed.
