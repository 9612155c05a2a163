(** Mean, variance and median determine each other's values. *)
From Coq Require Import List ZArith QArith Lqa Lia Arith Bool Permutation Sorted.
From Verif Require Import Base Stats_Model Stats_Spec Stats_Proofs Stats_Thm Order_Model Order_Spec Order_Proofs1 Summ_Model Summ_Spec Summ_Proofs1.
Import ListNotations.
Local Open Scope nat_scope.

Lemma gt_bool a b : negb (Qle_bool a b) = true <-> (b < a)%Q.
Proof.
  rewrite negb_true_iff. split; intro H.
  - apply Qnot_le_lt. intro L. apply Qle_bool_iff in L. congruence.
  - destruct (Qle_bool a b) eqn:E; [|reflexivity]. apply Qle_bool_iff in E. lra.
Qed.
(** [a < b]: every value is above [a] or below [b] *)
Lemma below_above a b l : (a < b)%Q -> length l <= above a l + below b l.
Proof.
  intro L. unfold above, below. induction l as [|x l IH]; [cbn; lia|]. cbn [filter length].
  destruct (negb (Qle_bool x a)) eqn:E; destruct (negb (Qle_bool b x)) eqn:F; cbn [length]; try lia. exfalso.
  assert (A : ~ (a < x)%Q) by (intro X; apply gt_bool in X; congruence).
  assert (B : ~ (x < b)%Q) by (intro X; apply gt_bool in X; congruence). lra.
Qed.
Lemma lower_le a a' l : lower_median a l -> lower_median a' l -> (a' <= a)%Q.
Proof.
  intros (_ & B & A) (_ & B' & A'). apply Qnot_lt_le. intro L. pose proof (below_above a a' l L). lia.
Qed.
Lemma upper_le a a' l : upper_median a l -> upper_median a' l -> (a' <= a)%Q.
Proof.
  intros (_ & A & B) (_ & A' & B'). apply Qnot_lt_le. intro L. pose proof (below_above a a' l L). lia.
Qed.
Lemma lower_perm a l l' : Permutation l l' -> lower_median a l -> lower_median a l'.
Proof.
  intros P (I & B & A). unfold lower_median, below, above in *. rewrite <- !(filter_perm _ _ _ _ P), <- (Permutation_length P).
  split; [eapply Permutation_in; eassumption|auto].
Qed.
Lemma upper_perm a l l' : Permutation l l' -> upper_median a l -> upper_median a l'.
Proof.
  intros P (I & B & A). unfold upper_median, below, above in *. rewrite <- !(filter_perm _ _ _ _ P), <- (Permutation_length P).
  split; [eapply Permutation_in; eassumption|auto].
Qed.
Lemma average_perm l l' : Permutation l l' -> (average l == average l')%Q.
Proof. intro P. unfold average, qlen. rewrite (qtotal_perm _ _ P), (Permutation_length P). reflexivity. Qed.
Lemma variance_perm l l' : Permutation l l' -> (sample_variance l == sample_variance l')%Q.
Proof.
  intro P. unfold sample_variance, qlen. rewrite (Permutation_length P).
  rewrite (qtotal_perm _ _ (Permutation_map (fun x => (x - average l) * (x - average l))%Q P)).
  rewrite (qtotal_ext _ (fun x => (x - average l') * (x - average l'))%Q); [reflexivity|].
  intros x _. rewrite (average_perm _ _ P). reflexivity.
Qed.
Lemma describes_unique s s' l l' : Permutation l l' -> describes s l -> describes s' l' -> same_stat s s'.
Proof.
  intros P D D'. pose proof (Permutation_length P) as L. destruct l as [|x l], l' as [|x' l']; try discriminate.
  - destruct D as (A & B & C), D' as (A' & B' & C'). unfold same_stat. rewrite A, B, C, A', B', C'. repeat split; reflexivity.
  - destruct D as (A & B & a & b & LA & UB & C), D' as (A' & B' & a' & b' & LA' & UB' & C').
    apply (lower_perm _ _ _ P) in LA. apply (upper_perm _ _ _ P) in UB.
    unfold same_stat. split; [rewrite A, A'; apply average_perm, P|]. split.
    + rewrite B, B', L. destruct (length (x' :: l') =? 1); [reflexivity|apply variance_perm, P].
    + rewrite C, C'. assert (E1 : (a == a')%Q) by (apply Qle_antisym; eapply lower_le; eassumption).
      assert (E2 : (b == b')%Q) by (apply Qle_antisym; eapply upper_le; eassumption). rewrite E1, E2. reflexivity.
Qed.

Lemma below_comp m m' l : (m == m')%Q -> below m l = below m' l.
Proof.
  intro E. unfold below. f_equal. apply filter_ext. intro x. f_equal. destruct (Qle_bool m x) eqn:A; symmetry.
  - apply Qle_bool_iff in A. apply Qle_bool_iff. lra.
  - destruct (Qle_bool m' x) eqn:B; [|reflexivity]. apply Qle_bool_iff in B. assert (X : (m <= x)%Q) by lra. apply Qle_bool_iff in X. congruence.
Qed.
Lemma above_comp m m' l : (m == m')%Q -> above m l = above m' l.
Proof.
  intro E. unfold above. f_equal. apply filter_ext. intro x. f_equal. destruct (Qle_bool x m) eqn:A; symmetry.
  - apply Qle_bool_iff in A. apply Qle_bool_iff. lra.
  - destruct (Qle_bool x m') eqn:B; [|reflexivity]. apply Qle_bool_iff in B. assert (X : (x <= m)%Q) by lra. apply Qle_bool_iff in X. congruence.
Qed.
Lemma describes_facts s l : l <> [] -> describes s l ->
  between (s_mean s) l /\ in_middle (s_median s) l /\ (0 <= s_var s)%Q /\
  ((s_var s == 0)%Q <-> forall x y, In x l -> In y l -> (x == y)%Q).
Proof.
  intros N D. destruct l as [|z l]; [congruence|]. cbn [describes] in D. set (l0 := z :: l) in *. destruct D as (A & B & a & b & LA & UB & C).
  destruct (C21_mean l0 N) as (s1 & E1 & _ & M1 & _ & BT).
  destruct (C21_median l0 N) as (s2 & a' & b' & E2 & IM & LA' & UB' & M2).
  split; [|split].
  - destruct BT as (u & v & U & V & UM & MV & F). exists u, v. rewrite A, <- M1. auto.
  - assert (ME : (s_median s == st_median s2)%Q).
    { rewrite C, M2. assert (X1 : (a == a')%Q) by (apply Qle_antisym; eapply lower_le; eassumption).
      assert (X2 : (b == b')%Q) by (apply Qle_antisym; eapply upper_le; eassumption). rewrite X1, X2. reflexivity. }
    unfold in_middle in *. rewrite (below_comp _ _ l0 ME), (above_comp _ _ l0 ME). exact IM.
  - destruct (Nat.eqb_spec (length l0) 1) as [L1|L1].
    + split; [rewrite B; lra|]. split; [|intros _; exact B]. intros _ x y X Y.
      unfold l0 in *. destruct l; [|cbn in L1; lia]. destruct X as [<-|[]], Y as [<-|[]]. reflexivity.
    + destruct (C21_variance l0) as (s3 & v & E3 & V3 & VE & VP & VZ); [unfold l0 in *; cbn in *; lia|].
      rewrite B, <- VE. split; [exact VP|exact VZ].
Qed.
