From Coq Require Import List Arith ZArith NArith QArith Bool Permutation Sorted Lia.
From Verif Require Import Base Order_Model Order_Spec.
Import ListNotations.
Local Open Scope nat_scope.

Lemma get_ok {A} (l : list A) i d : i < length l -> get l i = Ok (nth i l d).
Proof. intros H. unfold get. rewrite (nth_error_nth' l d H). reflexivity. Qed.
Lemma set_ok {A} (l : list A) : forall i x d, i < length l ->
  exists l', set l i x = Ok l' /\ length l' = length l /\ nth i l' d = x /\ (forall k, k <> i -> nth k l' d = nth k l d).
Proof.
  induction l as [|y l IH]; intros i x d H; cbn in H; [lia|]. destruct i as [|i]; cbn [set].
  - eexists. split; [reflexivity|]. split; [reflexivity|]. split; [reflexivity|]. intros [|k] Hk; [lia|reflexivity].
  - destruct (IH i x d) as (l' & -> & L & E & F); [lia|]. cbn [rbind]. eexists. split; [reflexivity|].
    split; [cbn; lia|]. split; [exact E|]. intros [|k] Hk; [reflexivity|]. cbn. apply F. lia.
Qed.

Lemma map_nth_seq {A} (l : list A) d : map (fun i => nth i l d) (seq 0 (length l)) = l.
Proof.
  induction l as [|x l IH]; [reflexivity|]. cbn [length seq map nth]. f_equal.
  rewrite <- seq_shift, map_map. exact IH.
Qed.

(** ** the comparisons *)
Lemma sgn_diff_spec a b : (sgn_diff a b <= 0 <-> a <= b)%Z /\ (sgn_diff a b < 0 <-> a < b)%Z /\ (0 < sgn_diff a b <-> b < a)%Z.
Proof. unfold sgn_diff. destruct (Z.ltb_spec (a - b) 0), (Z.ltb_spec 0 (a - b)); lia. Qed.
Lemma index_consistent diff o arr l :
  (forall x y, In x l -> In y l -> let a := nth x arr 0%Z in let b := nth y arr 0%Z in
     (diff a b <= 0 <-> a <= b)%Z /\ (diff a b < 0 <-> a < b)%Z /\ (0 < diff a b <-> b < a)%Z) ->
  consistent (index_cmp diff o arr) l /\
  (forall x y, In x l -> In y l -> (index_cmp diff o arr x y <= 0)%Z <-> not_after o (nth x arr 0%Z) (nth y arr 0%Z)).
Proof.
  intros H. unfold consistent, index_cmp, not_after. cbv zeta in H. split; [split|].
  - intros x y Hx Hy. destruct (H x y Hx Hy) as (A & B & C). destruct (H y x Hy Hx) as (A' & B' & C'). destruct o; lia.
  - intros x y z Hx Hy Hz. pose proof (H x y Hx Hy). pose proof (H y z Hy Hz). pose proof (H x z Hx Hz).
    pose proof (H y x Hy Hx). pose proof (H z y Hz Hy). pose proof (H z x Hz Hx). destruct o; lia.
  - intros x y Hx Hy. pose proof (H x y Hx Hy). pose proof (H y x Hy Hx). destruct o; lia.
Qed.
Lemma sorted_weaken {A} (R S : A -> A -> Prop) l : (forall x y, In x l -> In y l -> R x y -> S x y) ->
  StronglySorted R l -> StronglySorted S l.
Proof.
  intros H. induction 1 as [|a l Hs IH Hf]; constructor.
  - apply IH. intros x y Hx Hy. apply H; right; assumption.
  - rewrite Forall_forall in *. intros y Hy. apply H; [left; reflexivity|right; exact Hy|apply Hf, Hy].
Qed.
Lemma sort_sorts qsort diff o arr : qsort_contract qsort ->
  (forall x y, In x (seq 0 (length arr)) -> In y (seq 0 (length arr)) -> let a := nth x arr 0%Z in let b := nth y arr 0%Z in
     (diff a b <= 0 <-> a <= b)%Z /\ (diff a b < 0 <-> a < b)%Z /\ (0 < diff a b <-> b < a)%Z) ->
  sorts o arr (qsort (index_cmp diff o arr) (seq 0 (length arr))).
Proof.
  intros Q H. destruct (index_consistent diff o arr _ H) as (C & D). destruct (Q _ _ C) as (P & S).
  split; [exact P|]. revert S. apply sorted_weaken. intros x y Hx Hy. apply D.
  - eapply Permutation_in; [exact P|exact Hx].
  - eapply Permutation_in; [exact P|exact Hy].
Qed.
Lemma wrap32_small z : (- 2 ^ 31 <= z < 2 ^ 31)%Z -> wrap32 z = z.
Proof. intros H. unfold wrap32. rewrite Z.mod_small; lia. Qed.

(** ** ranks *)
Section Rank.
Variables (arr : list Z) (ptr : list nat) (o : order).
Hypothesis Hs : sorts o arr ptr.
Let num := length arr.
Definition P (i : nat) := nth i ptr 0.
Definition V (i : nat) := nth (P i) arr 0%Z.

Lemma ptr_len : length ptr = num.
Proof. destruct Hs as (H & _). apply Permutation_length in H. rewrite seq_length in H. exact H. Qed.
Lemma P_lt i : i < num -> P i < num.
Proof.
  intros H. destruct Hs as (Hp & _). assert (In (P i) (seq 0 (length arr))) as Hi.
  { apply (Permutation_in _ Hp). apply nth_In. rewrite ptr_len. exact H. }
  apply in_seq in Hi. unfold num. lia.
Qed.
Lemma P_inj i j : i < num -> j < num -> P i = P j -> i = j.
Proof.
  intros Hi Hj E. destruct Hs as (Hp & _).
  assert (N : NoDup ptr) by (apply (Permutation_NoDup (Permutation_sym Hp)), seq_NoDup).
  rewrite (NoDup_nth ptr 0) in N. apply N; rewrite ?ptr_len; assumption.
Qed.
Lemma P_onto p : p < num -> exists i, i < num /\ P i = p.
Proof.
  intros H. destruct Hs as (Hp & _). assert (In p ptr) as Hi.
  { apply (Permutation_in _ (Permutation_sym Hp)). apply in_seq. unfold num in H. lia. }
  apply (In_nth _ _ 0) in Hi. destruct Hi as (i & Hi & E). exists i. rewrite ptr_len in Hi. split; assumption.
Qed.
Lemma V_sorted i j : i <= j -> j < num -> not_after o (V i) (V j).
Proof.
  intros Hij Hj. destruct Hs as (_ & Hss). destruct (Nat.eq_dec i j) as [->|Hn]; [destruct o; cbn; lia|].
  assert (G : forall l, StronglySorted (fun p q => not_after o (nth p arr 0%Z) (nth q arr 0%Z)) l ->
            forall i j, i < j -> j < length l -> not_after o (nth (nth i l 0) arr 0%Z) (nth (nth j l 0) arr 0%Z)).
  { clear. induction 1 as [|a l S IH F]; intros i j Hij Hj; cbn in Hj; [lia|].
    destruct j as [|j]; [lia|]. destruct i as [|i]; cbn [nth].
    - rewrite Forall_forall in F. apply F. apply nth_In. lia.
    - apply IH; lia. }
  apply (G ptr Hss); rewrite ?ptr_len; lia.
Qed.

Lemma count_V f : count f arr = length (filter (fun i => f (V i)) (seq 0 num)).
Proof.
  unfold count. assert (E : Permutation arr (map V (seq 0 num))).
  { replace (map V (seq 0 num)) with (map (fun p => nth p arr 0%Z) ptr).
    - destruct Hs as (Hp & _). apply Permutation_trans with (map (fun p => nth p arr 0%Z) (seq 0 (length arr))).
      + apply Permutation_refl'. clear. rewrite <- (map_nth_seq arr 0%Z) at 1. reflexivity.
      + apply Permutation_map, Permutation_sym, Hp.
    - unfold V, P. rewrite <- (map_map (fun i => nth i ptr 0) (fun p => nth p arr 0%Z)). f_equal.
      rewrite <- (map_nth_seq ptr 0) at 1. rewrite ptr_len. reflexivity. }
  assert (L : forall l m, Permutation l m -> length (filter f l) = length (filter f m)).
  { clear. induction 1; cbn; try (destruct (f x)); try (destruct (f y)); cbn; lia. }
  rewrite (L _ _ E). clear. induction (seq 0 num) as [|i l IH]; [reflexivity|]. cbn. destruct (f (V i)); cbn; lia.
Qed.
End Rank.
