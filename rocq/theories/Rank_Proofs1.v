(** Ranking of fractions. *)
From Coq Require Import List ZArith QArith NArith Lqa Lia Arith Bool Permutation Sorted.
From Verif Require Import Base Order_Model Order_Spec Order_Proofs1 Order_Proofs2 Order_Thm Summ_Model Summ_Proofs1 Rank_Model Rank_Spec.
Import ListNotations.
Local Open Scope nat_scope.

Section Units.
Variable l : list Q.
Definition unit_val (x : Q) : Z := (Qnum x * (Zpos (denominator l) / Zpos (Qden x)))%Z.

Lemma den_divides x : In x l -> (Zpos (Qden x) | Zpos (denominator l))%Z.
Proof.
  unfold denominator.  induction l as [|y m IH]; intros [].
  - subst y. cbn [fold_right]. rewrite Pos2Z.inj_mul. apply Z.divide_factor_l.
  - cbn [fold_right]. rewrite Pos2Z.inj_mul. apply Z.divide_mul_r. auto.
Qed.
Lemma unit_val_ok x : In x l -> (inject_Z (unit_val x) == x * inject_Z (Zpos (denominator l)))%Q.
Proof.
  intro H. destruct (den_divides x H) as (k & K). unfold unit_val. rewrite K, Z.div_mul by lia. destruct x as [n d]. cbn [Qnum Qden]. unfold Qeq, inject_Z, Qmult. cbn [Qnum Qden]. lia.
Qed.
Lemma unit_le x y : In x l -> In y l -> (unit_val x <= unit_val y)%Z <-> (x <= y)%Q.
Proof.
  intros X Y. rewrite Zle_Qle, (unit_val_ok x X), (unit_val_ok y Y). apply Qmult_le_r. reflexivity.
Qed.
Lemma unit_ltb x y : In x l -> In y l -> (unit_val x <? unit_val y)%Z = negb (Qle_bool y x).
Proof.
  intros X Y. pose proof (unit_le y x Y X) as H. destruct (Z.ltb_spec (unit_val x) (unit_val y)) as [A|A]; symmetry.
  - apply negb_true_iff. destruct (Qle_bool y x) eqn:E; [|reflexivity]. apply Qle_bool_iff in E. apply H in E. lia.
  - apply negb_false_iff. apply Qle_bool_iff. apply H. exact A.
Qed.
Lemma unit_eqb x y : In x l -> In y l -> (unit_val y =? unit_val x)%Z = Qeq_bool x y.
Proof.
  intros X Y. pose proof (unit_le y x Y X) as H. pose proof (unit_le x y X Y) as H'.
  destruct (Z.eqb_spec (unit_val y) (unit_val x)) as [A|A]; symmetry.
  - apply Qeq_bool_iff. apply Qle_antisym; [apply H'|apply H]; lia.
  - destruct (Qeq_bool x y) eqn:E; [|reflexivity]. apply Qeq_bool_iff in E. exfalso. apply A.
    assert (x <= y)%Q by lra. assert (y <= x)%Q by lra. apply H' in H0. apply H in H1. lia.
Qed.
End Units.

Lemma in_units_map l : in_units l = map (unit_val l) l.
Proof. reflexivity. Qed.
Lemma nth_units l i : i < length l -> nth i (in_units l) 0%Z = unit_val l (nth i l 0%Q).
Proof.
  intro H. rewrite in_units_map. rewrite (nth_indep _ 0%Z (unit_val l 0%Q)) by (rewrite map_length; exact H). apply map_nth.
Qed.
Lemma count_units (f : Z -> bool) (g : Q -> bool) l : (forall x, In x l -> f (unit_val l x) = g x) ->
  count f (in_units l) = length (filter g l).
Proof.
  intro H. unfold count. rewrite in_units_map.
  assert (G : forall m, incl m l -> length (filter f (map (unit_val l) m)) = length (filter g m)).
  { induction m as [|x m IH]; intro I; [reflexivity|]. cbn [map filter]. rewrite H by (apply I; left; reflexivity).
    specialize (IH (fun y h => I y (or_intror h))). destruct (g x); cbn [length]; rewrite IH; reflexivity. }
  apply G, incl_refl.
Qed.

Lemma rank_pcts_ok qs l o : qsort_contract qs -> exists ptr ranks, rank_pcts qs l o = Ok (ptr, ranks) /\
  length ranks = length l /\ lists_in_order o l ptr /\
  forall p, p < length l -> (nth p ranks 0 == rank_in o l (nth p l 0))%Q.
Proof.
  intro H. assert (LU : length (in_units l) = length l) by apply map_length.
  destruct (C30_mean_ranks qs H (in_units l) o (repeat 0%Q (length l))) as (rk & E & L & R).
  { rewrite repeat_length. symmetry. exact LU. }
  exists (sort_double_arr qs (in_units l) o), rk. split; [exact E|]. split; [congruence|]. split.
  - destruct (C31_double_sort qs H o (in_units l)) as (P & S). rewrite LU in P. split; [exact P|].
    revert S. apply sorted_weaken. intros x y X Y N. apply (Permutation_in _ P) in X, Y. apply in_seq in X, Y.
    rewrite !nth_units in N by lia. unfold not_after in N. unfold in_order. destruct o; apply (unit_le l) in N;
    try exact N; apply nth_In; lia.
  - intros p Hp. rewrite R by lia. rewrite nth_units by exact Hp. set (x := nth p l 0%Q).
    assert (X : In x l) by (apply nth_In; exact Hp).
    rewrite mean_rank2 by (rewrite in_units_map; apply in_map; exact X).
    unfold rank2, rank_in. rewrite (count_units _ (better o x)).
    + rewrite (count_units _ (Qeq_bool x)).
      * set (a := length (filter (better o x) l)). set (b := length (filter (Qeq_bool x) l)). unfold q.
        replace (Z.of_nat (2 * a + b + 1)) with (2 * Z.of_nat a + Z.of_nat b + 1)%Z by lia.
        rewrite !inject_Z_plus, inject_Z_mult. change (inject_Z 2) with 2%Q. change (inject_Z 1) with 1%Q. field.
      * intros y Y. apply unit_eqb; assumption.
    + intros y Y. unfold before_b, better. destruct o; apply unit_ltb; assumption.
Qed.
Lemma rank_pcts_sorts qs l ptr ranks : qsort_contract qs -> rank_pcts qs l Increasing = Ok (ptr, ranks) -> q_sorts l ptr.
Proof.
  intros H E. destruct (rank_pcts_ok qs l Increasing H) as (p & r & E' & _ & S & _). rewrite E in E'. injection E' as <- <-. exact S.
Qed.

(** ** lists of results *)
Lemma mapm_ok {A B} (f : A -> res B) (g : A -> B) l : (forall x, In x l -> f x = Ok (g x)) -> mapm f l = Ok (map g l).
Proof.
  induction l as [|x l IH]; intro H; [reflexivity|]. cbn [mapm map]. rewrite H by (left; reflexivity). cbn [rbind].
  rewrite IH by (intros y Y; apply H; right; exact Y). reflexivity.
Qed.
Lemma mapm_ex {A B} (f : A -> res B) (R : A -> B -> Prop) l : (forall x, In x l -> exists y, f x = Ok y /\ R x y) ->
  exists ys, mapm f l = Ok ys /\ Forall2 R l ys.
Proof.
  induction l as [|x l IH]; intro H.
  - exists []. split; [reflexivity|constructor].
  - destruct (H x) as (y & E & Y); [left; reflexivity|]. destruct IH as (ys & Es & F); [intros z Z; apply H; right; exact Z|].
    exists (y :: ys). cbn [mapm]. rewrite E. cbn [rbind]. rewrite Es. split; [reflexivity|constructor; assumption].
Qed.
Lemma mapm_undef {A B} (f : A -> res B) l : (forall x, In x l -> f x = Undef \/ exists y, f x = Ok y) ->
  (exists x, In x l /\ f x = Undef) -> mapm f l = Undef.
Proof.
  induction l as [|x l IH]; intros H (z & I & E); [destruct I|]. cbn [mapm].
  destruct (H x (or_introl eq_refl)) as [->|(y & Ey)]; [reflexivity|]. rewrite Ey. cbn [rbind].
  destruct I as [<-|I]; [congruence|]. rewrite IH; [reflexivity| |exists z; auto]. intros w W. apply H. right. exact W.
Qed.
Lemma Forall2_nth_seq {B} (R : nat -> B -> Prop) n ys d : forall k, Forall2 R (seq k n) ys -> length ys = n /\ forall i, i < n -> R (k + i) (nth i ys d).
Proof.
  revert ys. induction n as [|n IH]; intros ys k F; cbn [seq] in F; inversion F as [|a b c e H1 H2]; subst.
  - split; [reflexivity|lia].
  - destruct (IH _ _ H2) as (L & G). split; [cbn; lia|]. intros [|i] I; cbn [nth]; [rewrite Nat.add_0_r; exact H1|].
    replace (k + S i) with (S k + i) by lia. apply G. lia.
Qed.
Lemma get_map_seq {A} (h : nat -> A) n i : i < n -> get (map h (seq 0 n)) i = Ok (h i).
Proof. intro H. rewrite (get_ok _ i (h 0)) by (rewrite map_length, seq_length; exact H). rewrite map_nth, seq_nth by exact H. reflexivity. Qed.
Lemma set_map_seq {A} (h : nat -> A) x : forall n k i, i < n ->
  set (map h (seq k n)) i x = Ok (map (fun j => if j =? k + i then x else h j) (seq k n)).
Proof.
  induction n as [|n IH]; intros k i H; [lia|]. cbn [seq map]. destruct i as [|i]; cbn [set].
  - rewrite Nat.add_0_r, Nat.eqb_refl. f_equal. f_equal. apply map_ext_in. intros j J. apply in_seq in J.
    destruct (Nat.eqb_spec j k); [lia|reflexivity].
  - rewrite IH by lia. cbn [rbind]. replace (S k + i) with (k + S i) by lia.
    destruct (Nat.eqb_spec k (k + S i)); [lia|]. reflexivity.
Qed.
