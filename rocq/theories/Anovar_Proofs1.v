(** Sums of ranks and of their squares, with ties. *)
From Coq Require Import List ZArith QArith NArith Lia Lqa Arith Bool Permutation.
From Verif Require Import Base Order_Model Rank_Model Rank_Spec Anovar_Model Anovar_Spec.
Import ListNotations.
Local Open Scope nat_scope.

Definition zsum (l : list Z) : Z := fold_right Z.add 0%Z l.
Lemma zsum_cons x l : zsum (x :: l) = (x + zsum l)%Z.
Proof. reflexivity. Qed.
Lemma zsum_app a b : zsum (a ++ b) = (zsum a + zsum b)%Z.
Proof. induction a as [|x a IH]; [reflexivity|]. cbn [app]. rewrite !zsum_cons, IH. lia. Qed.
Lemma zsum_split {A} (g : A -> Z) (p : A -> bool) l :
  zsum (map g l) = (zsum (map g (filter p l)) + zsum (map g (filter (fun x => negb (p x)) l)))%Z.
Proof.
  induction l as [|x l IH]; [reflexivity|]. cbn [map filter]. rewrite !zsum_cons, IH.
  destruct (p x); cbn [negb map]; rewrite !zsum_cons; lia.
Qed.
Lemma zsum_const {A} (g : A -> Z) c l : (forall x, In x l -> g x = c) -> zsum (map g l) = (Z.of_nat (length l) * c)%Z.
Proof.
  induction l as [|x l IH]; intro H; [reflexivity|]. cbn [map length]. rewrite !zsum_cons.
  rewrite IH by (intros y Y; apply H; right; exact Y). rewrite (H x) by (left; reflexivity). lia.
Qed.
Lemma zsum_ext {A} (g h : A -> Z) l : (forall x, In x l -> g x = h x) -> zsum (map g l) = zsum (map h l).
Proof. intro H. f_equal. apply map_ext_in, H. Qed.
Lemma filter_split {A} (p : A -> bool) l : length (filter p l) + length (filter (fun x => negb (p x)) l) = length l.
Proof. induction l as [|x l IH]; [reflexivity|]. cbn [filter]. destruct (p x); cbn [negb length]; lia. Qed.
Lemma filter_twice {A} (p g : A -> bool) l : filter p (filter g l) = filter (fun x => g x && p x) l.
Proof. induction l as [|x l IH]; [reflexivity|]. cbn [filter]. destruct (g x); cbn [andb filter]; [destruct (p x); congruence|exact IH]. Qed.

Lemma qeqb x y : Qeq_bool x y = true <-> (x == y)%Q.
Proof. apply Qeq_bool_iff. Qed.
Lemma qeqb_false x y : Qeq_bool x y = false <-> ~ (x == y)%Q.
Proof. split; intro H; [apply Qeq_bool_neq, H|]. destruct (Qeq_bool x y) eqn:E; [|reflexivity]. apply qeqb in E. contradiction. Qed.
Lemma better_spec o x y : better o x y = true <-> match o with Increasing => (y < x)%Q | Decreasing => (x < y)%Q end.
Proof.
  assert (NB : forall s t : Q, negb (Qle_bool s t) = true <-> (t < s)%Q).
  { intros s t. rewrite negb_true_iff. split; intro E.
    - apply Qnot_le_lt. intro L. apply Qle_bool_iff in L. congruence.
    - destruct (Qle_bool s t) eqn:F; [|reflexivity]. apply Qle_bool_iff in F. exfalso. lra. }
  destruct o; unfold better; apply NB.
Qed.
Lemma better_false o x y : better o x y = false <-> match o with Increasing => (x <= y)%Q | Decreasing => (y <= x)%Q end.
Proof.
  assert (NB : forall s t : Q, negb (Qle_bool s t) = false <-> (s <= t)%Q).
  { intros s t. rewrite negb_false_iff. apply Qle_bool_iff. }
  destruct o; unfold better; apply NB.
Qed.

Section Row.
Variable o : order.
Definition bef (v : list Q) (x : Q) : nat := length (filter (better o x) v).
Definition eqs (v : list Q) (x : Q) : nat := length (filter (Qeq_bool x) v).

Lemma worst v : v <> [] -> exists w, In w v /\ forall y, In y v -> better o y w = false.
Proof.
  induction v as [|x v IH]; [congruence|]. intros _. destruct v as [|y v].
  - exists x. split; [left; reflexivity|]. intros z [<-|[]]. apply better_false. destruct o; lra.
  - destruct IH as (w & I & W); [discriminate|]. destruct (better o x w) eqn:E.
    + (* w better than x: x is the worst *)
      exists x. split; [left; reflexivity|]. intros z [<-|Z]; [apply better_false; destruct o; lra|].
      specialize (W z Z). apply better_false in W. apply better_spec in E. apply better_false. destruct o; lra.
    + exists w. split; [right; exact I|]. intros z [<-|Z]; auto.
Qed.

Variable G : nat -> nat -> Z.
Variable H : nat -> Z.
Hypothesis H0 : H 0 = 0%Z.
Hypothesis HS : forall n c, 1 <= c -> H (n + c) = (H n + Z.of_nat c * G n c)%Z.

Lemma by_groups : forall n v, length v <= n -> zsum (map (fun x => G (bef v x) (eqs v x)) v) = H (length v).
Proof.
  induction n as [|n IH]; intros v L.
  - destruct v; [|cbn in L; lia]. symmetry. exact H0.
  - destruct (list_eq_dec (fun a b : Q => ltac:(decide equality; [apply Pos.eq_dec|apply Z.eq_dec]) : {a = b} + {a <> b}) v []) as [->|N]; [symmetry; exact H0|].
    destruct (worst v N) as (w & I & W).
    set (v' := filter (fun x => negb (Qeq_bool w x)) v).
    set (c := length (filter (Qeq_bool w) v)).
    assert (C : 1 <= c).
    { unfold c. assert (J : In w (filter (Qeq_bool w) v)) by (apply filter_In; split; [exact I|apply qeqb; reflexivity]).
      destruct (filter (Qeq_bool w) v); [destruct J|cbn; lia]. }
    assert (LV : c + length v' = length v) by apply filter_split.
    rewrite (zsum_split _ (Qeq_bool w)). fold v'.
    rewrite (zsum_const _ (G (length v') c)).
    2:{ intros x X. apply filter_In in X. destruct X as (X & E). apply qeqb in E. f_equal.
        - unfold bef, v'. f_equal. apply filter_ext_in. intros y Y. specialize (W y Y). apply better_false in W.
          destruct (Qeq_bool w y) eqn:F; cbn [negb].
          + apply qeqb in F. apply better_false. destruct o; lra.
          + apply qeqb_false in F. apply better_spec. destruct o; [destruct (Qlt_le_dec y x); [assumption|exfalso; apply F; lra]|].
            destruct (Qlt_le_dec x y); [assumption|exfalso; apply F; lra].
        - unfold eqs, c. f_equal. apply filter_ext. intro y. destruct (Qeq_bool w y) eqn:F; [apply qeqb in F; apply qeqb; lra|].
          apply qeqb_false in F. apply qeqb_false. lra. }
    rewrite (zsum_ext _ (fun x => G (bef v' x) (eqs v' x))).
    2:{ intros x X. apply filter_In in X. destruct X as (X & E). apply negb_true_iff, qeqb_false in E. f_equal.
        - unfold bef, v'. rewrite filter_twice. f_equal. apply filter_ext_in. intros y Y.
          destruct (Qeq_bool w y) eqn:F; cbn [negb andb]; [|reflexivity]. apply qeqb in F.
          specialize (W x X). apply better_false in W. apply better_false. destruct o; lra.
        - unfold eqs, v'. rewrite filter_twice. f_equal. apply filter_ext_in. intros y Y.
          destruct (Qeq_bool w y) eqn:F; cbn [negb andb]; [|reflexivity]. apply qeqb in F. apply qeqb_false. intro. apply E. lra. }
    rewrite IH by lia. rewrite <- LV. rewrite (Nat.add_comm c). rewrite HS by exact C. fold c. lia.
Qed.
End Row.

(** twice the rank *)
Definition rk2 (o : order) (v : list Q) (x : Q) : Z := (2 * Z.of_nat (bef o v x) + Z.of_nat (eqs v x) + 1)%Z.
Lemma rank_in_rk2 o v x : (rank_in o v x == inject_Z (rk2 o v x) / 2)%Q.
Proof. unfold rank_in, rk2, q. fold (bef o v x) (eqs v x). rewrite !inject_Z_plus, inject_Z_mult. change (inject_Z 2) with 2%Q. change (inject_Z 1) with 1%Q. field. Qed.
(** the ties of a row *)
Definition ties (v : list Q) : Z := zsum (map (fun x => Z.of_nat (eqs v x) * Z.of_nat (eqs v x) - 1)%Z v).
Lemma sum_rk2 o v : zsum (map (rk2 o v) v) = (Z.of_nat (length v) * (Z.of_nat (length v) + 1))%Z.
Proof.
  rewrite (zsum_ext _ (fun x => (fun a b => 2 * Z.of_nat a + Z.of_nat b + 1)%Z (bef o v x) (eqs v x))) by reflexivity.
  rewrite (by_groups o (fun a b => 2 * Z.of_nat a + Z.of_nat b + 1)%Z (fun n => Z.of_nat n * (Z.of_nat n + 1))%Z) with (n := length v); [reflexivity|reflexivity| |lia].
  intros n c C. rewrite Nat2Z.inj_add. ring.
Qed.
Lemma sum_squares o v : (3 * zsum (map (fun x => rk2 o v x * rk2 o v x) v) + ties v =
  2 * Z.of_nat (length v) * (Z.of_nat (length v) + 1) * (2 * Z.of_nat (length v) + 1))%Z.
Proof.
  transitivity (zsum (map (fun x => (fun a b => 3 * (2 * Z.of_nat a + Z.of_nat b + 1) * (2 * Z.of_nat a + Z.of_nat b + 1) + (Z.of_nat b * Z.of_nat b - 1))%Z (bef o v x) (eqs v x)) v)).
  - unfold ties. assert (K : forall l, (3 * zsum (map (fun x => rk2 o v x * rk2 o v x) l) + zsum (map (fun x => Z.of_nat (eqs v x) * Z.of_nat (eqs v x) - 1) l) =
      zsum (map (fun x => 3 * (2 * Z.of_nat (bef o v x) + Z.of_nat (eqs v x) + 1) * (2 * Z.of_nat (bef o v x) + Z.of_nat (eqs v x) + 1) + (Z.of_nat (eqs v x) * Z.of_nat (eqs v x) - 1)) l))%Z).
    { induction l as [|x l IH]; [reflexivity|]. cbn [map]. rewrite !zsum_cons. rewrite <- IH. unfold rk2. ring. }
    apply K.
  - rewrite (by_groups o (fun a b => 3 * (2 * Z.of_nat a + Z.of_nat b + 1) * (2 * Z.of_nat a + Z.of_nat b + 1) + (Z.of_nat b * Z.of_nat b - 1))%Z
      (fun n => 2 * Z.of_nat n * (Z.of_nat n + 1) * (2 * Z.of_nat n + 1))%Z) with (n := length v); [reflexivity|reflexivity| |lia].
    intros n c C. rewrite Nat2Z.inj_add. ring.
Qed.
(** the deviations of one row *)
Lemma sum_dev o v : (3 * zsum (map (fun x => (rk2 o v x - (Z.of_nat (length v) + 1)) * (rk2 o v x - (Z.of_nat (length v) + 1))) v) =
  Z.of_nat (length v) * (Z.of_nat (length v) * Z.of_nat (length v) - 1) - ties v)%Z.
Proof.
  pose proof (sum_squares o v) as S. pose proof (sum_rk2 o v) as R. set (m := Z.of_nat (length v)) in *.
  assert (K : forall l, zsum (map (fun x => (rk2 o v x - (m + 1)) * (rk2 o v x - (m + 1))) l)%Z =
     (zsum (map (fun x => rk2 o v x * rk2 o v x) l) - 2 * (m + 1) * zsum (map (rk2 o v) l) + Z.of_nat (length l) * (m + 1) * (m + 1))%Z).
  { induction l as [|x l IH]; [cbn; ring|]. cbn [map]. rewrite !zsum_cons. rewrite IH. cbn [length]. rewrite Nat2Z.inj_succ. ring. }
  rewrite K, R. fold m. transitivity (2 * m * (m + 1) * (2 * m + 1) - ties v - 6 * (m + 1) * (m * (m + 1)) + 3 * m * (m + 1) * (m + 1))%Z; [lia|ring].
Qed.
