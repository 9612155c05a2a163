(** The statistics of sclite. *)
From Coq Require Import List ZArith QArith Lqa Lia Arith Bool Permutation Sorted.
From Verif Require Import Base Stats_Model Stats_Spec Stats_Proofs Stats_Thm Order_Model Order_Spec Order_Proofs1 Summ_Model Summ_Spec.
Import ListNotations.
Local Open Scope nat_scope.

Lemma q_sign_spec a b : ((q_sign a b <= 0)%Z <-> (a <= b)%Q) /\ ((q_sign a b < 0)%Z <-> (a < b)%Q) /\ ((0 < q_sign a b)%Z <-> (b < a)%Q).
Proof.
  unfold q_sign. destruct (Qcompare_spec a b) as [E|E|E].
  - split; [|split]; split; intro H; try lia; lra.
  - split; [|split]; split; intro H; try lia; lra.
  - split; [|split]; split; intro H; try lia; lra.
Qed.
Lemma q_consistent l ix : consistent (q_cmp l) ix.
Proof.
  split.
  - intros x y _ _. unfold q_cmp. rewrite (proj1 (proj2 (q_sign_spec _ _))). symmetry. apply (proj2 (proj2 (q_sign_spec _ _))).
  - intros x y z _ _ _. unfold q_cmp. rewrite !(proj1 (q_sign_spec _ _)). intros; lra.
Qed.

Definition q_sorts (l : list Q) (ptr : list nat) : Prop :=
  Permutation ptr (seq 0 (length l)) /\ StronglySorted (fun p q => (nth p l 0 <= nth q l 0)%Q) ptr.
Lemma double_sorts qs l : qsort_contract qs -> q_sorts l (qs (q_cmp l) (seq 0 (length l))).
Proof.
  intro H. destruct (H _ (seq 0 (length l)) (q_consistent l _)) as (P & S). split; [exact P|].
  revert S. apply sorted_weaken. intros x y _ _ E. apply (proj1 (q_sign_spec _ _)). exact E.
Qed.
Lemma int_sorts qs (l : list Z) : qsort_contract qs -> Forall (fun z => - 2 ^ 30 <= z < 2 ^ 30)%Z l ->
  q_sorts (map inject_Z l) (sort_int_arr qs l Increasing).
Proof.
  intros H F. unfold sort_int_arr. destruct (sort_sorts qs int_diff Increasing l H) as (P & S).
  - intros x y X Y. cbv zeta. apply in_seq in X, Y.
    assert (A : forall i, i < length l -> (- 2 ^ 30 <= nth i l 0 < 2 ^ 30)%Z) by (intros i I; rewrite Forall_forall in F; apply F, nth_In, I).
    pose proof (A x). pose proof (A y). unfold int_diff. rewrite wrap32_small; lia.
  - split; [rewrite map_length; exact P|]. revert S. apply sorted_weaken. intros x y X Y E. cbn [not_after] in E.
    change 0%Q with (inject_Z 0). rewrite !map_nth. rewrite <- Zle_Qle. exact E.
Qed.

Lemma sorted_map {A B} (f : A -> B) (R : B -> B -> Prop) l : StronglySorted (fun x y => R (f x) (f y)) l -> StronglySorted R (map f l).
Proof. induction 1 as [|a l S IH F]; cbn [map]; constructor; [exact IH|]. rewrite Forall_map. exact F. Qed.
Lemma at_rank l ptr i : q_sorts l ptr -> i < length l -> exists p x, get ptr i = Ok p /\ get l p = Ok x /\ p < length l /\
  forall y, nth_error (qsort l) i = Some y -> (x == y)%Q.
Proof.
  intros (P & S) I. pose proof (Permutation_length P) as L. rewrite seq_length in L.
  set (p := nth i ptr 0). assert (IP : In p (seq 0 (length l))) by (eapply Permutation_in; [exact P|]; apply nth_In; lia).
  apply in_seq in IP. exists p, (nth p l 0%Q).
  split; [rewrite (get_ok ptr i 0); [reflexivity|lia]|]. split; [apply get_ok; lia|]. split; [lia|]. intros y Y.
  set (v := map (fun p => nth p l 0%Q) ptr).
  assert (PV : Permutation v l).
  { eapply Permutation_trans; [apply Permutation_map; exact P|]. rewrite map_nth_seq. reflexivity. }
  assert (SV : StronglySorted Qle v) by (apply sorted_map; exact S).
  assert (NV : nth_error v i = Some (nth p l 0%Q)).
  { unfold v. rewrite nth_error_map. rewrite (nth_error_nth' ptr 0); [reflexivity|lia]. }
  assert (PQ : Permutation v (qsort l)) by (rewrite qsort_perm; exact PV).
  apply Qle_antisym.
  - exact (pos_unique_le _ _ i y _ (Permutation_sym PQ) (qsort_sorted l) SV Y NV).
  - exact (pos_unique_le _ _ i _ y PQ SV (qsort_sorted l) NV Y).
Qed.

(** ** sums *)
Lemma fold_total l : forall t, (fold_left (fun t x => t + x) l t == t + qtotal l)%Q.
Proof. induction l as [|x l IH]; intro t; cbn [fold_left qtotal fold_right]; [lra|]. rewrite IH. unfold qtotal. lra. Qed.
Lemma total_ok l : (total l == qtotal l)%Q.
Proof. unfold total. rewrite fold_total. lra. Qed.
Lemma fold_squares l m : forall t, (fold_left (fun t x => t + (x - m) * (x - m)) l t == t + qtotal (map (fun x => (x - m) * (x - m)) l))%Q.
Proof. induction l as [|x l IH]; intro t; cbn [fold_left qtotal fold_right map]; [lra|]. rewrite IH. unfold qtotal. lra. Qed.
Lemma squares_ok l m : (squares l m == qtotal (map (fun x => (x - m) * (x - m)) l))%Q.
Proof. unfold squares. rewrite fold_squares. lra. Qed.
Lemma qtotal_ext {A} (f g : A -> Q) l : (forall x, In x l -> f x == g x)%Q -> (qtotal (map f l) == qtotal (map g l))%Q.
Proof.
  intro H. induction l as [|x l IH]; [reflexivity|]. cbn [map qtotal fold_right].
  assert (E : (f x == g x)%Q) by (apply H; left; reflexivity). rewrite E. apply Qplus_comp; [reflexivity|].
  apply IH. intros y Y. apply H. right. exact Y.
Qed.
Lemma mean_ok l : (total l / nq (length l) == average l)%Q.
Proof. rewrite total_ok. reflexivity. Qed.
Lemma variance_ok l m : l <> [] -> (m == average l)%Q ->
  (variance l m == if length l =? 1 then 0 else sample_variance l)%Q.
Proof.
  intros N M. assert (E : (squares l m == qtotal (map (fun x => (x - average l) * (x - average l)) l))%Q).
  { rewrite squares_ok. apply qtotal_ext. intros x _. rewrite M. reflexivity. }
  unfold variance. cbv zeta. destruct (Nat.eqb_spec (length l) 1) as [L1|L1].
  - destruct l as [|x [|y l]]; try discriminate. assert (Z : (squares [x] m == 0)%Q).
    { rewrite E. cbn [map qtotal fold_right]. unfold average, qlen. cbn [qtotal fold_right length Z.of_nat Pos.of_succ_nat].
      change (inject_Z 1) with 1%Q. field. }
    rewrite (proj2 (Qeq_bool_iff _ _) Z). reflexivity.
  - destruct (Qeq_bool (squares l m) 0) eqn:Q.
    + apply Qeq_bool_iff in Q. unfold sample_variance. rewrite <- E, Q. unfold Qdiv. rewrite Qmult_0_l. reflexivity.
    + unfold sample_variance. rewrite <- E. reflexivity.
Qed.

Lemma even_mod n : (n mod 2 =? 0) = Nat.even n.
Proof.
  destruct (Nat.even n) eqn:E.
  - apply Nat.even_spec in E. destruct E as [k ->]. apply Nat.eqb_eq. rewrite Nat.mul_comm. apply Nat.mod_mul. lia.
  - apply Nat.eqb_neq. intro M. assert (X : Nat.even n = true); [|congruence].
    apply Nat.even_spec. exists (n / 2). pose proof (Nat.div_mod n 2). lia.
Qed.

Lemma two_or_more_medians l s : l <> [] -> compute l = Some s -> exists a b, lower_median a l /\ upper_median b l /\ (st_median s == (a + b) / 2)%Q.
Proof.
  intros N E. destruct (C21_median l N) as (s' & a & b & E' & _ & A & B & M). rewrite E in E'. injection E' as <-.
  exists a, b. auto.
Qed.
(** the median by sorted indices is the median *)
Lemma median_ok l ptr : l <> [] -> q_sorts l ptr -> exists m,
  (if Nat.even (length l) then
     exists p x p1 y, get ptr (length l / 2) = Ok p /\ get l p = Ok x /\ length l / 2 <> 0 /\
       get ptr (length l / 2 - 1) = Ok p1 /\ get l p1 = Ok y /\ p < length l /\ p1 < length l /\ m = ((x + y) / 2)%Q
   else exists p, get ptr (length l / 2) = Ok p /\ p < length l /\ get l p = Ok m) /\
  exists a b, lower_median a l /\ upper_median b l /\ (m == (a + b) / 2)%Q.
Proof.
  intros N S. destruct (compute_some l N) as (s & E & _ & _ & _ & _ & _ & a & b & i & j & A & B & M & I & J).
  assert (LP : 0 < length l) by (destruct l; [congruence|cbn; lia]).
  destruct (two_or_more_medians l s N E) as (a' & b' & LA & UB & ME).
  rewrite Nat.div2_div in *. assert (D : length l / 2 < length l) by (apply Nat.div_lt; lia).
  destruct (at_rank l ptr _ S D) as (p & x & GP & GX & PL & X). subst i. specialize (X _ A).
  destruct (Nat.even (length l)) eqn:EV.
  - assert (H2 : length l / 2 <> 0).
    { intro Z. apply Nat.even_spec in EV. destruct EV as [k K]. rewrite K, Nat.mul_comm, Nat.div_mul in Z; lia. }
    assert (D1 : length l / 2 - 1 < length l) by lia.
    destruct (at_rank l ptr _ S D1) as (p1 & y & GP1 & GY & PL1 & Y). subst j. specialize (Y _ B).
    exists ((x + y) / 2)%Q. split; [exists p, x, p1, y; auto 10|]. exists a', b'. split; [exact LA|]. split; [exact UB|].
    rewrite X, Y, <- ME, M. reflexivity.
  - exists x. split; [exists p; auto|]. exists a', b'. split; [exact LA|]. split; [exact UB|]. rewrite X, <- ME, M. reflexivity.
Qed.

Lemma describes_of l s : l <> [] -> (s_mean s == average l)%Q -> (s_var s == if (length l =? 1)%nat then 0 else sample_variance l)%Q ->
  (exists a b, lower_median a l /\ upper_median b l /\ (s_median s == (a + b) / 2)%Q) -> describes s l.
Proof. intros N A B C. unfold describes. destruct l as [|x l]; [congruence|]. auto. Qed.

Lemma calc_double_ok qs l : qsort_contract qs -> exists s, calc_double qs l = Ok s /\ describes s l.
Proof.
  intro H. destruct l as [|x [|y l]].
  - exists zero_stat. split; [reflexivity|]. cbn. repeat split; reflexivity.
  - eexists. split; [reflexivity|]. apply describes_of; [discriminate| | |].
    + apply mean_ok.
    + cbn [s_var]. apply variance_ok; [discriminate|apply mean_ok].
    + cbn [s_median]. exists x, x. assert (B : negb (Qle_bool x x) = false) by (apply nbool; apply Qle_refl).
      unfold lower_median, upper_median, below, above. cbn [filter]. rewrite B. cbn [length].
      repeat split; try (left; reflexivity); try lia. field.
  - set (l0 := x :: y :: l). assert (N : l0 <> []) by discriminate.
    destruct (median_ok l0 _ N (double_sorts qs l0 H)) as (m & C & M).
    assert (MD : median_double qs l0 = Ok m).
    { unfold median_double. cbv zeta. rewrite even_mod. destruct (Nat.even (length l0)).
      - destruct C as (p & x' & p1 & y' & G1 & G2 & H2 & G3 & G4 & _ & _ & ->).
        rewrite G1. cbn [rbind]. rewrite G2. cbn [rbind]. destruct (Nat.eqb_spec (length l0 / 2) 0) as [Z|_]; [congruence|].
        rewrite G3. cbn [rbind]. rewrite G4. reflexivity.
      - destruct C as (p & G1 & _ & G2). rewrite G1. exact G2. }
    unfold calc_double. unfold l0 in *. rewrite MD. cbn [rbind]. eexists. split; [reflexivity|].
    apply describes_of; [exact N| | |].
    + apply mean_ok.
    + cbn [s_var]. apply variance_ok; [exact N|apply mean_ok].
    + exact M.
Qed.
Lemma get_map (l : list Z) p x : p < length l -> get (map inject_Z l) p = Ok x -> exists z, get l p = Ok z /\ x = inject_Z z.
Proof.
  intros L E. rewrite (get_ok l p 0%Z) by lia. exists (nth p l 0%Z). split; [reflexivity|].
  rewrite (get_ok _ p (inject_Z 0)) in E by (rewrite map_length; lia). rewrite map_nth in E. congruence.
Qed.
Lemma get_range l p z : Forall (fun z => - 2 ^ 30 <= z < 2 ^ 30)%Z l -> get l p = Ok z -> (- 2 ^ 30 <= z < 2 ^ 30)%Z.
Proof.
  intros F E. unfold get in E. destruct (nth_error l p) as [y|] eqn:N; [|discriminate]. injection E as <-.
  rewrite Forall_forall in F. apply F. eapply nth_error_In, N.
Qed.
Lemma calc_int_ok qs (l : list Z) : qsort_contract qs -> l <> [] -> Forall (fun z => - 2 ^ 30 <= z < 2 ^ 30)%Z l ->
  exists s, calc_int qs l = Ok s /\ describes s (map inject_Z l).
Proof.
  intros H N F. set (q := map inject_Z l). assert (NQ : q <> []) by (unfold q; destruct l; [congruence|discriminate]).
  destruct (median_ok q _ NQ (int_sorts qs l H F)) as (m & C & a & b & LA & UB & M).
  assert (LQ : length q = length l) by apply map_length. rewrite LQ in C.
  assert (MD : exists m', median_int qs l = Ok m' /\ (m' == m)%Q).
  { unfold median_int. cbv zeta. rewrite even_mod. destruct (Nat.even (length l)).
    - destruct C as (p & x' & p1 & y' & G1 & G2 & H2 & G3 & G4 & P1 & P2 & ->).
      destruct (get_map l p x' P1 G2) as (z & GZ & ->). destruct (get_map l p1 y' P2 G4) as (w & GW & ->).
      rewrite G1. cbn [rbind]. rewrite GZ. cbn [rbind]. destruct (Nat.eqb_spec (length l / 2) 0) as [Z|_]; [congruence|].
      rewrite G3. cbn [rbind]. rewrite GW. cbn [rbind].
      pose proof (get_range l p z F GZ). pose proof (get_range l p1 w F GW).
      assert (I : in_int (z + w) = true). { unfold in_int. apply andb_true_iff. split; [apply Z.leb_le|apply Z.ltb_lt]; lia. }
      rewrite I. eexists. split; [reflexivity|]. rewrite inject_Z_plus. reflexivity.
    - destruct C as (p & G1 & P1 & G2). destruct (get_map l p m P1 G2) as (z & GZ & ->).
      rewrite G1. cbn [rbind]. rewrite GZ. cbn [rbind]. eexists. split; reflexivity. }
  destruct MD as (m' & MD & ME). unfold calc_int. rewrite MD. cbn [rbind]. eexists. split; [reflexivity|].
  fold q. apply describes_of; [exact NQ| | |].
  - apply mean_ok.
  - cbn [s_var]. apply variance_ok; [exact NQ|apply mean_ok].
  - cbn [s_median]. exists a, b. rewrite ME. auto.
Qed.
