(** Theorems: the cumulative binomial distribution. *)
From Coq Require Import List Arith ZArith QArith Lia Lqa Bool.
From Verif Require Import Binom_Model Binom_Spec Binom_Proofs.
Import ListNotations.
Local Open Scope Q_scope.

(** The counting function is the number of ways to have r successes in n trials. *)
Theorem C34_number_of_ways : forall n r, (r <= n)%nat ->
  n_choose_r (Z.of_nat n) (Z.of_nat r) == inject_Z (Z.of_nat (ways n r)).
Proof. exact n_choose_r_ways. Qed.
Print Assumptions C34_number_of_ways.

(** With a variance of at most 5 the value is the probability of at most R successes in n independent
    trials, summed over the sequences of results. *)
Theorem C34_exact : forall n R p, (R <= n)%nat -> inject_Z (Z.of_nat n) * p * (1 - p) <= 5 ->
  acc_binomial (Z.of_nat R) (Z.of_nat n) p == at_most R n p.
Proof.
  intros n R p H V. unfold acc_binomial. apply Qle_bool_iff in V. rewrite V.
  replace (Z.to_nat (Z.of_nat R + 1)) with (S R) by lia. apply acc_loop_at_most. exact H.
Qed.
Print Assumptions C34_exact.

(** For every n, every probability and every number of successes up to n, the value is between 0 and 1
    and does not decrease with the number of successes. *)
Theorem C34_probability : forall n R p, (R <= n)%nat -> 0 <= p <= 1 ->
  0 <= acc_binomial (Z.of_nat R) (Z.of_nat n) p <= 1.
Proof.
  intros n R p H Hp. destruct (Qlt_le_dec 5 (inject_Z (Z.of_nat n) * p * (1 - p))) as [V|V].
  - unfold acc_binomial. destruct (Qle_bool _ 5) eqn:E; [apply Qle_bool_iff in E; lra|]. apply normal_bounds.
  - rewrite C34_exact by assumption. split; [apply at_most_nonneg|apply at_most_le1]; assumption.
Qed.
Print Assumptions C34_probability.

Theorem C34_monotone : forall n R R' p, (R <= R' <= n)%nat -> 0 <= p <= 1 ->
  acc_binomial (Z.of_nat R) (Z.of_nat n) p <= acc_binomial (Z.of_nat R') (Z.of_nat n) p.
Proof.
  intros n R R' p H Hp. destruct (Qlt_le_dec 5 (inject_Z (Z.of_nat n) * p * (1 - p))) as [V|V].
  - unfold acc_binomial. destruct (Qle_bool _ 5) eqn:E; [apply Qle_bool_iff in E; lra|]. apply normal_mono. lia.
  - rewrite !C34_exact by (assumption || lia). apply at_most_mono; [assumption|lia].
Qed.
Print Assumptions C34_monotone.

Theorem C34_all_successes : forall n p, inject_Z (Z.of_nat n) * p * (1 - p) <= 5 ->
  acc_binomial (Z.of_nat n) (Z.of_nat n) p == 1.
Proof. intros n p V. rewrite C34_exact by (assumption || lia). apply at_most_all. Qed.
Print Assumptions C34_all_successes.

(** Refuted without the bound on the variance: with 21 trials at one half, at most 21 successes gets
    the value 1/2, because the approximation halves the number of successes. *)
Theorem C34_all_successes_refuted : exists n, acc_binomial (Z.of_nat n) (Z.of_nat n) (1 # 2) == 1 # 2.
Proof. exists 21%nat. vm_compute. reflexivity. Qed.
Print Assumptions C34_all_successes_refuted.

(** So the approximation is not close to the distribution: with more than 20 trials at one half it
    gives less than 1/40 to every number of successes below one half of the trials. *)
Theorem C34_approximation_refuted : 
  (forall n R, (20 < n)%nat -> (2 * R < n)%nat -> acc_binomial (Z.of_nat R) (Z.of_nat n) (1 # 2) < 1 # 40)
  /\ forall n, at_most n (S (2 * n)) (1 # 2) == 1 # 2.
Proof.
  split.
  - intros n R H H'. unfold acc_binomial. rewrite large_n by lia.
    pose proof (normal_tail_small (Z.of_nat R) (Z.of_nat n) ltac:(lia) ltac:(lia) ltac:(lia)). lra.
  - apply half_odd.
Qed.
Print Assumptions C34_approximation_refuted.

(** Refuted beyond n successes: the value then exceeds 1. *)
Theorem C34_beyond_n_refuted : exists n R, (n < R)%Z /\ 1 < acc_binomial R n (1 # 2).
Proof. exists 0%Z, 1%Z. vm_compute. auto. Qed.
Print Assumptions C34_beyond_n_refuted.

(** The normal distribution is read off the table at the last entry not above |z|: for a deviation of
    square [d2] and variance [v], entry [i] with z_i <= sqrt (d2 / v) < z_(i+1). *)
Theorem C34_table_entry : forall d2 v, (0 < v)%Q -> (0 <= d2)%Q ->
  length znorm = length fnorm /\
  exists i, (i < length znorm)%nat /\ normprob d2 v = unit9 (nth i fnorm 0%Z)
    /\ (unit9 (nth i znorm 0%Z) * unit9 (nth i znorm 0%Z) * v <= d2)%Q
    /\ ((S i < length znorm)%nat -> (d2 < unit9 (nth (S i) znorm 0%Z) * unit9 (nth (S i) znorm 0%Z) * v)%Q).
Proof.
  intros d2 v Hv Hd. split; [vm_compute; reflexivity|].
  assert (Z : exists zs fs, znorm = 0%Z :: zs /\ fnorm = hd 0%Z fnorm :: fs /\ length zs = length fs /\ strictly_from 0 zs = true).
  { exists (tl znorm), (tl fnorm). split; [reflexivity|]. split; [reflexivity|]. split; vm_compute; reflexivity. }
  unfold normprob. destruct Z as (zs & fs & Ez & Ef & L & S). rewrite Ez, Ef. cbn [hd tl].
  destruct (walk_entry d2 v Hv zs fs 0%Z (hd 0%Z fnorm) L (Z.le_refl 0) S) as (i & Li & E & P1 & P2).
  { unfold unit9. apply Qle_trans with 0%Q; [|exact Hd]. setoid_replace ((0 # 1000000000) * (0 # 1000000000) * v)%Q with 0%Q; [apply Qle_refl|].
    setoid_replace (0 # 1000000000)%Q with 0%Q by reflexivity. ring. }
  exists i. cbn [length]. split; [lia|]. rewrite E. split; [reflexivity|]. split; [exact P1|]. intros Lt. apply P2. lia.
Qed.
Print Assumptions C34_table_entry.

Example C34_case : acc_binomial 2 10 (1 # 2) == 7 # 128 /\ at_most 2 10 (1 # 2) == 7 # 128
  /\ acc_binomial 3 8 (1 # 3) == at_most 3 8 (1 # 3) /\ acc_binomial 8 8 (1 # 3) == 1.
Proof. vm_compute. auto. Qed.
Example C34_large_case : acc_binomial 20 50 (1 # 2) < 1 # 1000 /\ 0 <= acc_binomial 20 50 (1 # 2).
Proof. vm_compute. split; [reflexivity|discriminate]. Qed.
