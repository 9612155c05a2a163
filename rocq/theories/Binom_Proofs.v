(** Proofs about the binomial distribution and its normal approximation. *)
From Coq Require Import List Arith ZArith QArith Qpower Lia Lqa Bool Factorial Permutation.
From Verif Require Import Binom_Model Binom_Spec.
Import ListNotations.
Local Open Scope Q_scope.

Lemma filter_length_le {A} (f : A -> bool) l : (length (filter f l) <= length l)%nat.
Proof. induction l; cbn; [lia|]. destruct (f a); cbn; lia. Qed.

(** * the number of ways *)
Lemma count_map {A B} (f : A -> B) (g : B -> bool) l : length (filter g (map f l)) = length (filter (fun x => g (f x)) l).
Proof. induction l; cbn; [reflexivity|]. destruct (g (f a)); cbn; rewrite IHl; reflexivity. Qed.

Lemma ways_0 n : ways (S n) 0 = ways n 0.
Proof.
  unfold ways. cbn [outcomes]. rewrite filter_app, app_length, !count_map.
  replace (length (filter _ _)) with 0%nat; [reflexivity|].
  induction (outcomes n); cbn; auto.
Qed.
Lemma ways_S n r : ways (S n) (S r) = (ways n r + ways n (S r))%nat.
Proof. unfold ways. cbn [outcomes]. rewrite filter_app, app_length, !count_map. reflexivity. Qed.
Lemma ways_0_0 : ways 0 0 = 1%nat. Proof. reflexivity. Qed.
Lemma ways_big n : forall r, (n < r)%nat -> ways n r = 0%nat.
Proof.
  induction n; intros r H; destruct r; try lia; [reflexivity|].
  rewrite ways_S, !IHn by lia. reflexivity.
Qed.
Lemma ways_n_0 n : ways n 0 = 1%nat.
Proof. induction n; [reflexivity|]. rewrite ways_0. exact IHn. Qed.

Lemma ways_fact n : forall r, (r <= n)%nat -> (ways n r * (fact r * fact (n - r)) = fact n)%nat.
Proof.
  induction n; intros r H.
  - assert (r = 0)%nat by lia. subst. reflexivity.
  - destruct r.
    + rewrite ways_n_0. cbn [fact]. rewrite Nat.sub_0_r. cbn [fact]. lia.
    + rewrite ways_S. destruct (Nat.eq_dec r n) as [->|Hn].
      * rewrite (ways_big n (S n)) by lia. specialize (IHn n (Nat.le_refl _)).
        rewrite Nat.sub_diag in *. cbn [fact] in *. nia.
      * pose proof (IHn r) as A. pose proof (IHn (S r)) as B.
        replace (S n - S r)%nat with (n - r)%nat by lia.
        replace (n - r)%nat with (S (n - S r)) in * by lia. cbn [fact] in *.
        specialize (A ltac:(lia)). specialize (B ltac:(lia)).
        remember (fact r) as a. remember (fact (n - S r)) as b. remember (fact n) as c.
        remember (ways n r) as w. remember (ways n (S r)) as w'.
        assert (E : (S n = S r + S (n - S r))%nat) by lia. remember (n - S r)%nat as k. rewrite E. clear - A B. nia.
Qed.

Lemma mult_loop_fact k : forall i, (Z.of_nat (fact i) * mult_loop k (Z.of_nat i + 1) = Z.of_nat (fact (i + k)))%Z.
Proof.
  induction k; intros i; cbn [mult_loop].
  - rewrite Nat.add_0_r. lia.
  - replace (i + S k)%nat with (S i + k)%nat by lia. rewrite <- IHk.
    replace (Z.of_nat i + 1 + 1)%Z with (Z.of_nat (S i) + 1)%Z by lia.
    cbn [fact]. replace (Z.of_nat (fact i + i * fact i)) with (Z.of_nat (fact i) * (Z.of_nat i + 1))%Z by lia. lia.
Qed.

Lemma n_choose_r_ways n r : (r <= n)%nat ->
  n_choose_r (Z.of_nat n) (Z.of_nat r) == inject_Z (Z.of_nat (ways n r)).
Proof.
  intros H. unfold n_choose_r, seq_mult.
  replace (Z.to_nat (Z.of_nat n - (Z.of_nat r + 1) + 1)) with (n - r)%nat by lia.
  replace (Z.to_nat (Z.of_nat n - Z.of_nat r - 1 + 1)) with (n - r)%nat by lia.
  pose proof (mult_loop_fact (n - r) r) as A. replace (r + (n - r))%nat with n in A by lia.
  pose proof (mult_loop_fact (n - r) 0) as B. cbn [fact Z.of_nat Nat.add] in B. rewrite Z.mul_1_l in B.
  change (0 + 1)%Z with 1%Z in B. rewrite B.
  pose proof (ways_fact n r H) as W. pose proof (lt_O_fact r) as P. pose proof (lt_O_fact (n - r)) as P'.
  apply Qmult_inj_r with (z := inject_Z (Z.of_nat (fact (n - r)))).
  { unfold Qeq, inject_Z; cbn [Qnum Qden]; lia. }
  unfold Qdiv. rewrite <- Qmult_assoc, (Qmult_comm (/ _)), Qmult_inv_r, Qmult_1_r
    by (unfold Qeq, inject_Z; cbn [Qnum Qden]; lia).
  rewrite <- inject_Z_mult. apply inject_Z_injective.
  apply Z.mul_cancel_l with (p := Z.of_nat (fact r)); [lia|]. rewrite A. nia.
Qed.

(** * the tail as a sum *)
Definition term (n r : nat) (p : Q) : Q := Qpower p (Z.of_nat r) * Qpower (1 - p) (Z.of_nat n - Z.of_nat r).

Lemma Qpower_S q r : Qpower q (Z.of_nat (S r)) == q * Qpower q (Z.of_nat r).
Proof. 
  replace (Z.of_nat (S r)) with (1 + Z.of_nat r)%Z by lia. 
  rewrite Qpower_plus' by lia. rewrite Qpower_1_r. reflexivity.
Qed.

Lemma prob_term p l : prob p l == term (length l) (successes l) p.
Proof.
  unfold term. induction l as [|b l IH]; [reflexivity|].
  cbn [prob length]. assert (Hs : (successes l <= length l)%nat) by (apply filter_length_le).
  rewrite IH. destruct b.
  - change (successes (true :: l)) with (S (successes l)). rewrite Qpower_S.
    replace (Z.of_nat (S (length l)) - Z.of_nat (S (successes l)))%Z with (Z.of_nat (length l) - Z.of_nat (successes l))%Z by lia.
    ring.
  - change (successes (false :: l)) with (successes l).
    replace (Z.of_nat (S (length l)) - Z.of_nat (successes l))%Z with (Z.of_nat (S (length l - successes l)))%Z by lia.
    rewrite Qpower_S. replace (Z.of_nat (length l - successes l)) with (Z.of_nat (length l) - Z.of_nat (successes l))%Z by lia.
    ring.
Qed.

Lemma outcomes_length n : forall l, In l (outcomes n) -> length l = n.
Proof.
  induction n; cbn [outcomes]; intros l H.
  - destruct H as [<-|[]]; reflexivity.
  - apply in_app_or in H. destruct H as [H|H]; apply in_map_iff in H; destruct H as (x & <- & H); cbn; f_equal; auto.
Qed.

Lemma qsum_app a b : qsum (a ++ b) == qsum a + qsum b.
Proof. induction a; cbn; [ring|]. rewrite IHa. ring. Qed.

Lemma qsum_const {A} (f : A -> Q) c l : (forall x, In x l -> f x == c) -> qsum (map f l) == inject_Z (Z.of_nat (length l)) * c.
Proof.
  induction l as [|a l IH]; intros H; [cbn; ring|].
  cbn [map qsum length]. rewrite IH by (intros; apply H; right; assumption). rewrite (H a) by (left; reflexivity).
  rewrite Nat2Z.inj_succ, <- Z.add_1_r, inject_Z_plus. ring.
Qed.

Lemma split_sum p R l : 
  qsum (map (prob p) (filter (fun l => successes l <=? S R)%nat l))
  == qsum (map (prob p) (filter (fun l => successes l <=? R)%nat l)) + qsum (map (prob p) (filter (fun l => successes l =? S R)%nat l)).
Proof.
  induction l as [|a l IH]; [cbn; ring|]. cbn [filter].
  destruct (Nat.leb_spec (successes a) (S R)), (Nat.leb_spec (successes a) R), (Nat.eqb_spec (successes a) (S R)); try lia;
    cbn [map qsum]; rewrite IH; ring.
Qed.

Lemma at_most_term n p r : 
  qsum (map (prob p) (filter (fun l => successes l =? r)%nat (outcomes n))) == inject_Z (Z.of_nat (ways n r)) * term n r p.
Proof.
  apply qsum_const. intros x H. apply filter_In in H. destruct H as [H1 H2]. apply Nat.eqb_eq in H2.
  rewrite prob_term, (outcomes_length n x H1), H2. reflexivity.
Qed.

Lemma filter_le_0 l : filter (fun l => successes l <=? 0)%nat l = filter (fun l => successes l =? 0)%nat l.
Proof. apply filter_ext. intros a. destruct (successes a); reflexivity. Qed.

Lemma acc_loop_at_most n p : forall R, (R <= n)%nat -> acc_loop (S R) (Z.of_nat n) p == at_most R n p.
Proof.
  induction R; intros H; unfold at_most.
  - rewrite filter_le_0, at_most_term. cbn [acc_loop]. rewrite n_choose_r_ways by lia. unfold term. ring.
  - rewrite split_sum, at_most_term. change (acc_loop (S (S R)) (Z.of_nat n) p) with
      (acc_loop (S R) (Z.of_nat n) p + n_choose_r (Z.of_nat n) (Z.of_nat (S R)) * Qpower p (Z.of_nat (S R)) * Qpower (1 - p) (Z.of_nat n - Z.of_nat (S R))).
    rewrite IHR by lia. rewrite n_choose_r_ways by lia. unfold term, at_most. ring.
Qed.

(** * it is a probability *)
Lemma prob_nonneg p l : 0 <= p <= 1 -> 0 <= prob p l.
Proof.
  intros H. induction l as [|b l IH]; cbn [prob]; [lra|]. apply Qmult_le_0_compat; [destruct b; lra|exact IH].
Qed.
Lemma qsum_nonneg {A} (f : A -> Q) l : (forall x, 0 <= f x) -> 0 <= qsum (map f l).
Proof. intros H. induction l; cbn [map qsum]; [lra|]. specialize (H a). lra. Qed.
Lemma at_most_nonneg R n p : 0 <= p <= 1 -> 0 <= at_most R n p.
Proof. intros H. apply qsum_nonneg. intros; apply prob_nonneg; exact H. Qed.
Lemma at_most_mono1 R n p : 0 <= p <= 1 -> at_most R n p <= at_most (S R) n p.
Proof.
  intros H. unfold at_most. rewrite split_sum.
  pose proof (qsum_nonneg (prob p) (filter (fun l => successes l =? S R)%nat (outcomes n)) (fun l => prob_nonneg p l H)). lra.
Qed.
Lemma at_most_mono R R' n p : 0 <= p <= 1 -> (R <= R')%nat -> at_most R n p <= at_most R' n p.
Proof. intros H. induction 1; [lra|]. eapply Qle_trans; [eassumption|]. apply at_most_mono1. exact H. Qed.
Lemma filter_all {A} (f : A -> bool) l : (forall x, In x l -> f x = true) -> filter f l = l.
Proof. induction l; cbn; intros H; [reflexivity|]. rewrite (H a) by (left; reflexivity). f_equal. apply IHl. intros; apply H; right; assumption. Qed.
Lemma qsum_map_scale {A} (f g : A -> Q) c l : (forall x, f x == c * g x) -> qsum (map f l) == c * qsum (map g l).
Proof. intros H. induction l; cbn [map qsum]; [ring|]. rewrite IHl, H. ring. Qed.
Lemma all_outcomes n p : qsum (map (prob p) (outcomes n)) == 1.
Proof.
  induction n; [cbn; ring|]. cbn [outcomes]. rewrite map_app, qsum_app, !map_map.
  rewrite (qsum_map_scale (fun x => prob p (true :: x)) (prob p) p) by (intros; reflexivity).
  rewrite (qsum_map_scale (fun x => prob p (false :: x)) (prob p) (1 - p)) by (intros; reflexivity).
  rewrite IHn. ring.
Qed.
Lemma at_most_all n p : at_most n n p == 1.
Proof.
  unfold at_most. rewrite filter_all; [apply all_outcomes|].
  intros x H. apply Nat.leb_le. rewrite <- (outcomes_length n x H) at 1. apply filter_length_le.
Qed.
Lemma at_most_le1 R n p : 0 <= p <= 1 -> at_most R n p <= 1.
Proof.
  intros H. destruct (Nat.le_ge_cases R n) as [L|L].
  - rewrite <- (at_most_all n p). apply at_most_mono; assumption.
  - unfold at_most. rewrite filter_all; [rewrite all_outcomes; lra|].
    intros x Hx. apply Nat.leb_le. rewrite <- (outcomes_length n x Hx) in L.
    pose proof (filter_length_le (fun b : bool => b) x). unfold successes. lia.
Qed.

(** the sum is symmetric at one half: P(at most R) + P(at most n - R - 1) = 1 *)
Lemma ways_sym n : forall r, (r <= n)%nat -> ways n r = ways n (n - r).
Proof.
  intros r H. pose proof (ways_fact n r H) as A. pose proof (ways_fact n (n - r) ltac:(lia)) as B.
  replace (n - (n - r))%nat with r in B by lia. pose proof (lt_O_fact r). pose proof (lt_O_fact (n - r)).
  rewrite (Nat.mul_comm (fact (n - r))) in B. rewrite <- A in B. apply Nat.mul_cancel_r in B; [symmetry; exact B|]. nia.
Qed.

(** * the normal table *)
Fixpoint sorted_from (prev : Z) (fs : list Z) : bool :=
  match fs with [] => true | f :: fs' => (prev <=? f)%Z && sorted_from f fs' end.

Lemma walk_ge d2 v : forall zs fs prev, sorted_from prev fs = true -> (prev <= normprob_walk d2 v prev zs fs)%Z.
Proof.
  induction zs as [|z zs IH]; intros fs prev H; [cbn; lia|].
  destruct fs as [|f fs]; [cbn; lia|]. cbn [normprob_walk]. cbv zeta. cbn [sorted_from] in H.
  apply andb_true_iff in H. destruct H as [H1 H2]. apply Z.leb_le in H1.
  destruct (Qle_bool _ _); [destruct (Qle_bool _ _)|]; try lia. specialize (IH fs f H2). lia.
Qed.

Lemma walk_le d2 v M : forall zs fs prev, (prev <= M)%Z -> forallb (fun f => f <=? M)%Z fs = true -> (normprob_walk d2 v prev zs fs <= M)%Z.
Proof.
  induction zs as [|z zs IH]; intros fs prev Hp H; [exact Hp|].
  destruct fs as [|f fs]; [exact Hp|]. cbn [normprob_walk]. cbv zeta. cbn [forallb] in H.
  apply andb_true_iff in H. destruct H as [H1 H2]. apply Z.leb_le in H1.
  destruct (Qle_bool _ _); [destruct (Qle_bool _ _)|]; auto.
Qed.

Lemma walk_mono v d2 d2' : d2 <= d2' -> forall zs fs prev, sorted_from prev fs = true ->
  (normprob_walk d2 v prev zs fs <= normprob_walk d2' v prev zs fs)%Z.
Proof.
  intros L. induction zs as [|z zs IH]; intros fs prev H; [cbn; lia|].
  destruct fs as [|f fs]; [cbn; lia|]. cbn [sorted_from] in H.
  apply andb_true_iff in H. destruct H as [H1 H2]. apply Z.leb_le in H1.
  cbn [normprob_walk]. cbv zeta. set (t := unit9 z * unit9 z * v).
  destruct (Qle_bool t d2) eqn:A.
  - apply Qle_bool_iff in A. assert (A' : Qle_bool t d2' = true) by (apply Qle_bool_iff; lra). rewrite A'.
    destruct (Qle_bool d2 t) eqn:B, (Qle_bool d2' t) eqn:C.
    + lia.
    + apply walk_ge; assumption.
    + apply Qle_bool_iff in C. assert (Qle_bool d2 t = true) by (apply Qle_bool_iff; lra). congruence.
    + apply IH; assumption.
  - destruct (Qle_bool t d2'); [destruct (Qle_bool d2' t)|]; try lia.
    pose proof (walk_ge d2' v zs fs f H2). lia.
Qed.

(** past the first [k] entries, all passed strictly, the walk gives at least entry [k] *)
Lemma walk_past d2 v : forall k zs fs prev f z, sorted_from prev fs = true ->
  nth_error zs k = Some z -> nth_error fs k = Some f ->
  (forall z', In z' (firstn k zs) -> unit9 z' * unit9 z' * v < d2) -> unit9 z * unit9 z * v <= d2 ->
  (f <= normprob_walk d2 v prev zs fs)%Z.
Proof.
  induction k; intros zs fs prev f z S Hz Hf P L; destruct zs as [|a zs], fs as [|b fs]; try discriminate;
    cbn [sorted_from] in S; apply andb_true_iff in S; destruct S as [S1 S2]; cbn [normprob_walk]; cbv zeta.
  - injection Hz as ->. injection Hf as ->. replace (Qle_bool _ _) with true by (symmetry; apply Qle_bool_iff; exact L).
    destruct (Qle_bool d2 _); [lia|]. apply walk_ge; assumption.
  - cbn [nth_error] in Hz, Hf. cbn [firstn] in P. pose proof (P a (or_introl eq_refl)) as Pa.
    replace (Qle_bool (unit9 a * unit9 a * v) d2) with true by (symmetry; apply Qle_bool_iff; lra).
    destruct (Qle_bool d2 (unit9 a * unit9 a * v)) eqn:Y; [apply Qle_bool_iff in Y; lra|].
    eapply IHk; eauto. intros z' I. apply P. right. exact I.
Qed.

Lemma fnorm_sorted : sorted_from (hd 0%Z fnorm) (tl fnorm) = true.
Proof. vm_compute. reflexivity. Qed.
Lemma fnorm_half : hd 0%Z fnorm = 500000000%Z. Proof. reflexivity. Qed.
Lemma fnorm_top : forallb (fun f => f <=? 1000000000)%Z (tl fnorm) = true.
Proof. vm_compute. reflexivity. Qed.

Lemma unit9_le a b : (a <= b)%Z -> unit9 a <= unit9 b.
Proof. intros H. unfold unit9, Qle. cbn [Qnum Qden]. lia. Qed.
Lemma normprob_bounds d2 v : 1 # 2 <= normprob d2 v <= 1.
Proof.
  unfold normprob. split.
  - change (1 # 2) with (1 # 2). apply Qle_trans with (unit9 500000000); [unfold unit9, Qle; cbn; lia|].
    apply unit9_le. rewrite <- fnorm_half at 1. apply walk_ge. apply fnorm_sorted.
  - apply Qle_trans with (unit9 1000000000); [|unfold unit9, Qle; cbn; lia]. apply unit9_le. apply walk_le; [vm_compute; discriminate|apply fnorm_top].
Qed.
Lemma normprob_mono d2 d2' v : d2 <= d2' -> normprob d2 v <= normprob d2' v.
Proof. intros H. apply unit9_le. apply walk_mono; [exact H|apply fnorm_sorted]. Qed.

Lemma normal_bounds R n p : 0 <= normal_tail R n p <= 1.
Proof.
  unfold normal_tail. cbv zeta. set (x := normprob _ _).
  pose proof (normprob_bounds ((inject_Z R * (1 # 2) - inject_Z n * p) * (inject_Z R * (1 # 2) - inject_Z n * p)) (inject_Z n * p * (1 - p))) as B.
  fold x in B. destruct (Qle_bool _ _); lra.
Qed.
Lemma normal_mono R R' n p : (R <= R')%Z -> normal_tail R n p <= normal_tail R' n p.
Proof.
  intros H. unfold normal_tail. cbv zeta. set (v := inject_Z n * p * (1 - p)). set (m := inject_Z n * p).
  assert (L : inject_Z R * (1 # 2) - m <= inject_Z R' * (1 # 2) - m). { rewrite Zle_Qle in H. lra. }
  set (d := inject_Z R * (1 # 2) - m) in *. set (d' := inject_Z R' * (1 # 2) - m) in *.
  pose proof (normprob_bounds (d * d) v). pose proof (normprob_bounds (d' * d') v).
  destruct (Qle_bool 0 d) eqn:A, (Qle_bool 0 d') eqn:B.
  - apply Qle_bool_iff in A. apply normprob_mono. nra.
  - apply Qle_bool_iff in A. assert (Qle_bool 0 d' = true) by (apply Qle_bool_iff; lra). congruence.
  - lra.
  - assert (~ 0 <= d') as K by (rewrite <- Qle_bool_iff; congruence). 
    pose proof (normprob_mono (d' * d') (d * d) v). assert (d' * d' <= d * d) by nra. specialize (H2 H3). lra.
Qed.

(** the approximation at one half: any number of successes below half counts as far out *)
Lemma unit9_sq_lt a b v : (0 <= a < b)%Z -> 0 < v -> unit9 a * unit9 a * v < unit9 b * unit9 b * v.
Proof.
  intros H Hv. apply Qmult_lt_r; [exact Hv|].
  assert (0 <= unit9 a) by (unfold unit9, Qle; cbn [Qnum Qden]; lia).
  assert (unit9 a < unit9 b) by (unfold unit9, Qlt; cbn [Qnum Qden]; lia). nra.
Qed.

Lemma normal_tail_small R n : (20 < n)%Z -> (0 <= R)%Z -> (2 * R < n)%Z -> 2 * normal_tail R n (1 # 2) < 1 # 20.
Proof.
  intros Hn HR H. unfold normal_tail. cbv zeta.
  set (d := inject_Z R * (1 # 2) - inject_Z n * (1 # 2)). set (v := inject_Z n * (1 # 2) * (1 - (1 # 2))).
  assert (HRn : inject_Z R * 2 + 1 <= inject_Z n).
  { change 2 with (inject_Z 2). change 1 with (inject_Z 1). rewrite <- inject_Z_mult, <- inject_Z_plus. rewrite <- Zle_Qle. lia. }
  assert (Hn' : 21 <= inject_Z n) by (change 21 with (inject_Z 21); rewrite <- Zle_Qle; lia).
  assert (HR' : 0 <= inject_Z R) by (change 0 with (inject_Z 0); rewrite <- Zle_Qle; lia).
  assert (Hv : v == inject_Z n * (1 # 4)) by (unfold v; ring).
  assert (Hd : d < 0) by (unfold d; lra).
  replace (Qle_bool 0 d) with false.
  2:{ symmetry. destruct (Qle_bool 0 d) eqn:E; [|reflexivity]. apply Qle_bool_iff in E. lra. }
  assert (Hdd : unit9 2400000000 * unit9 2400000000 * v <= d * d).
  { rewrite Hv. assert (U : unit9 2400000000 == 24 # 10) by reflexivity. rewrite U.
    assert (D : d <= - (inject_Z n + 1) * (1 # 4)) by (unfold d; lra).
    assert ((inject_Z n + 1) * (1 # 4) * ((inject_Z n + 1) * (1 # 4)) <= d * d) by nra. nra. }
  assert (B : unit9 991802500 <= normprob (d * d) v).
  { apply unit9_le. apply (walk_past (d * d) v 239) with (z := 2400000000%Z).
    - apply fnorm_sorted.
    - vm_compute. reflexivity.
    - vm_compute. reflexivity.
    - intros z' I. eapply Qlt_le_trans; [|exact Hdd]. apply unit9_sq_lt; [|lra].
      assert (F : forallb (fun z => (0 <=? z) && (z <? 2400000000))%Z (firstn 239 (tl znorm)) = true) by (vm_compute; reflexivity).
      rewrite forallb_forall in F. specialize (F z' I). lia.
    - exact Hdd. }
  assert (U : unit9 991802500 == 991802500 # 1000000000) by reflexivity. lra.
Qed.

Lemma large_n n : (20 < n)%Z -> Qle_bool (inject_Z n * (1 # 2) * (1 - (1 # 2))) 5 = false.
Proof.
  intros H. destruct (Qle_bool _ _) eqn:E; [|reflexivity]. apply Qle_bool_iff in E.
  assert (21 <= inject_Z n) by (change 21 with (inject_Z 21); rewrite <- Zle_Qle; lia). lra.
Qed.
Lemma small_n n : (n <= 20)%Z -> Qle_bool (inject_Z n * (1 # 2) * (1 - (1 # 2))) 5 = true.
Proof.
  intros H. apply Qle_bool_iff.
  assert (inject_Z n <= 20) by (change 20 with (inject_Z 20); rewrite <- Zle_Qle; lia). lra.
Qed.

(** * a fair coin tossed an odd number of times *)
Lemma outcomes_negb n : Permutation (map (map negb) (outcomes n)) (outcomes n).
Proof.
  induction n; [reflexivity|]. cbn [outcomes]. rewrite map_app, !map_map. cbn [map negb].
  rewrite Permutation_app_comm. apply Permutation_app.
  - rewrite <- (map_map (map negb) (cons true)). apply Permutation_map. exact IHn.
  - rewrite <- (map_map (map negb) (cons false)). apply Permutation_map. exact IHn.
Qed.
Lemma filter_perm_length {A} (f : A -> bool) l l' : Permutation l l' -> length (filter f l) = length (filter f l').
Proof. induction 1; cbn; auto; [destruct (f x); cbn; auto|destruct (f x), (f y); reflexivity|congruence]. Qed.
Lemma successes_negb l : (successes (map negb l) + successes l = length l)%nat.
Proof. unfold successes. induction l as [|b l IH]; [reflexivity|]. destruct b; cbn [map filter negb length] in *; lia. Qed.
Lemma prob_half l : prob (1 # 2) l == Qpower (1 # 2) (Z.of_nat (length l)).
Proof. induction l as [|b l IH]; [reflexivity|]. cbn [prob length]. rewrite Qpower_S, IH. destruct b; reflexivity. Qed.
Lemma filter_negb_length {A} (f : A -> bool) l : (length (filter f l) + length (filter (fun x => negb (f x)) l) = length l)%nat.
Proof. induction l; cbn; [reflexivity|]. destruct (f a); cbn; lia. Qed.
Lemma filter_ext_In {A} (f g : A -> bool) l : (forall x, In x l -> f x = g x) -> filter f l = filter g l.
Proof. induction l; cbn; intros H; [reflexivity|]. rewrite (H a) by auto. rewrite IHl by auto. reflexivity. Qed.

Lemma half_odd n : at_most n (S (2 * n)) (1 # 2) == 1 # 2.
Proof.
  set (N := S (2 * n)). pose proof (all_outcomes N (1 # 2)) as T. unfold at_most.
  assert (C : forall x, In x (outcomes N) -> prob (1 # 2) x == Qpower (1 # 2) (Z.of_nat N)).
  { intros x H. rewrite prob_half, (outcomes_length N x H). reflexivity. }
  rewrite (qsum_const (prob (1 # 2)) _ (outcomes N) C) in T.
  rewrite (qsum_const (prob (1 # 2)) (Qpower (1 # 2) (Z.of_nat N))).
  2:{ intros x H. apply filter_In in H. apply C. apply H. }
  set (f := fun l => (successes l <=? n)%nat). change (length (filter (fun l => (successes l <=? n)%nat) (outcomes N))) with (length (filter f (outcomes N))).
  assert (E : length (filter f (outcomes N)) = length (filter (fun l => negb (f l)) (outcomes N))).
  { rewrite <- (filter_perm_length f _ _ (outcomes_negb N)), count_map. f_equal. apply filter_ext_In.
    intros x H. pose proof (successes_negb x). rewrite (outcomes_length N x H) in H0. unfold f, N in *.
    destruct (Nat.leb_spec (successes (map negb x)) n), (Nat.leb_spec (successes x) n); cbn; lia. }
  pose proof (filter_negb_length f (outcomes N)) as S. rewrite <- E in S. rewrite <- S in T.
  rewrite Nat2Z.inj_add, inject_Z_plus in T. set (q := Qpower _ _) in *. lra.
Qed.

(** the walk stops at the last table entry not above the argument *)
Fixpoint strictly_from (prev : Z) (zs : list Z) : bool :=
  match zs with [] => true | z :: zs' => (prev <? z)%Z && strictly_from z zs' end.
Lemma walk_entry d2 v : 0 < v -> forall zs fs z0 f0, length zs = length fs -> (0 <= z0)%Z -> strictly_from z0 zs = true ->
  unit9 z0 * unit9 z0 * v <= d2 ->
  exists i, (i <= length zs)%nat /\ normprob_walk d2 v f0 zs fs = nth i (f0 :: fs) 0%Z
    /\ unit9 (nth i (z0 :: zs) 0%Z) * unit9 (nth i (z0 :: zs) 0%Z) * v <= d2
    /\ ((i < length zs)%nat -> d2 < unit9 (nth (S i) (z0 :: zs) 0%Z) * unit9 (nth (S i) (z0 :: zs) 0%Z) * v).
Proof.
  intros Hv. induction zs as [|z zs IH]; intros fs z0 f0 L H0 S P.
  - exists 0%nat. destruct fs; [|discriminate]. cbn. repeat split; auto; lia.
  - destruct fs as [|f fs]; [discriminate|]. cbn [strictly_from] in S. apply andb_true_iff in S. destruct S as [S1 S2]. apply Z.ltb_lt in S1.
    cbn [normprob_walk]. cbv zeta. destruct (Qle_bool (unit9 z * unit9 z * v) d2) eqn:A.
    + apply Qle_bool_iff in A. destruct (Qle_bool d2 (unit9 z * unit9 z * v)) eqn:B.
      * apply Qle_bool_iff in B. exists 1%nat. cbn [nth length]. split; [lia|]. split; [reflexivity|]. split; [exact A|].
        intros Lt. destruct zs as [|z' zs]; [cbn in Lt; lia|]. cbn [nth]. cbn [strictly_from] in S2. apply andb_true_iff in S2. destruct S2 as [S2 _].
        apply Z.ltb_lt in S2. apply Qle_lt_trans with (unit9 z * unit9 z * v); [exact B|].
        assert (unit9 z < unit9 z') by (unfold unit9, Qlt; cbn; lia). assert (0 <= unit9 z) by (unfold unit9, Qle; cbn; lia).
        set (a := unit9 z) in *. set (b := unit9 z') in *. clearbody a b. assert (a * a < b * b) by nra. nra.
      * destruct (IH fs z f) as (i & Li & E & P1 & P2); auto; [lia|]. exists (S i). cbn [length nth] in *.
        split; [lia|]. split; [exact E|]. split; [exact P1|]. intros Lt. apply P2. lia.
    + assert (~ (unit9 z * unit9 z * v <= d2)) by (rewrite <- Qle_bool_iff; congruence).
      exists 0%nat. cbn [nth length]. split; [lia|]. split; [reflexivity|]. split; [exact P|]. intros _. apply Qnot_le_lt. exact H.
Qed.
