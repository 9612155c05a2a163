From Coq Require Import List QArith Arith Bool Lia Lqa Permutation Sorting Setoid.
From Verif Require Import Stats_Model Stats_Spec.
Import ListNotations.
Local Open Scope Q_scope.

Lemma insert_perm : forall x l, Permutation (insert x l) (x :: l).
Proof.
  intros x l. induction l as [|y l IH]; cbn [insert]; [reflexivity|]. destruct (Qle_bool x y); [reflexivity|].
  rewrite IH. apply perm_swap.
Qed.
Lemma qsort_perm : forall l, Permutation (qsort l) l.
Proof. induction l as [|x l IH]; cbn [qsort]; [reflexivity|]. rewrite insert_perm, IH. reflexivity. Qed.
Lemma qle_total : forall x y, Qle_bool x y = false -> y <= x.
Proof. intros x y H. apply Qlt_le_weak, Qnot_le_lt. intro L. apply Qle_bool_iff in L. congruence. Qed.
Lemma insert_sorted : forall x l, StronglySorted Qle l -> StronglySorted Qle (insert x l).
Proof.
  intros x l H. induction H as [|y l S IH F]; cbn [insert]; [repeat constructor|].
  destruct (Qle_bool x y) eqn:E.
  - apply Qle_bool_iff in E. constructor; [constructor; assumption|]. constructor; [exact E|]. eapply Forall_impl; [|exact F].
    intros z Z. eapply Qle_trans; eassumption.
  - constructor; [exact IH|]. apply qle_total in E. eapply Permutation_Forall; [apply Permutation_sym, insert_perm|]. constructor; assumption.
Qed.
Lemma qsort_sorted : forall l, StronglySorted Qle (qsort l).
Proof. induction l as [|x l IH]; cbn [qsort]; [constructor|apply insert_sorted; exact IH]. Qed.

Lemma filter_len : forall A (p : A -> bool) l, (List.length (filter p l) <= List.length l)%nat.
Proof. induction l as [|x l IH]; cbn; [lia|]. destruct (p x); cbn; lia. Qed.
Lemma filter_none : forall A (p : A -> bool) l, Forall (fun x => p x = false) l -> filter p l = [].
Proof. intros A p l H. induction H as [|x l E H IH]; cbn; [reflexivity|]. rewrite E. exact IH. Qed.

Lemma sorted_split : forall l i v, StronglySorted Qle l -> nth_error l i = Some v ->
  exists l1 l2, l = l1 ++ v :: l2 /\ List.length l1 = i /\ Forall (fun x => x <= v) l1 /\ Forall (fun x => v <= x) l2.
Proof.
  induction l as [|y l IH]; intros i v S H; [destruct i; discriminate|]. inversion S as [|? ? S' F]; subst. destruct i as [|i]; cbn in H.
  - injection H as ->. exists [], l. repeat split; [constructor|exact F].
  - destruct (IH i v S' H) as (l1 & l2 & E & L & A & B). exists (y :: l1), l2. subst l. repeat split; [cbn; lia| |exact B].
    constructor; [|exact A]. rewrite Forall_forall in F. apply F. apply in_or_app. right. left. reflexivity.
Qed.
Lemma nbool : forall a b, a <= b -> negb (Qle_bool a b) = false.
Proof. intros a b H. apply Qle_bool_iff in H. rewrite H. reflexivity. Qed.
Lemma below_le : forall l i v m, StronglySorted Qle l -> nth_error l i = Some v -> m <= v -> (below m l <= i)%nat.
Proof.
  intros l i v m S H M. destruct (sorted_split l i v S H) as (l1 & l2 & -> & <- & A & B). unfold below. rewrite filter_app. cbn [filter].
  rewrite nbool by exact M. rewrite (filter_none _ _ l2), app_nil_r; [apply filter_len|].
  eapply Forall_impl; [|exact B]. cbn beta. intros x X. apply nbool. eapply Qle_trans; eassumption.
Qed.
Lemma above_le : forall l i v m, StronglySorted Qle l -> nth_error l i = Some v -> v <= m -> (above m l + S i <= List.length l)%nat.
Proof.
  intros l i v m S H M. destruct (sorted_split l i v S H) as (l1 & l2 & -> & <- & A & B). unfold above. rewrite filter_app. cbn [filter].
  rewrite nbool by exact M. rewrite (filter_none _ _ l1); [|eapply Forall_impl; [|exact A]; cbn beta; intros x X; apply nbool; eapply Qle_trans; eassumption].
  cbn [app]. rewrite app_length. cbn [List.length]. pose proof (filter_len _ (fun x => negb (Qle_bool x m)) l2). lia.
Qed.
Lemma filter_perm : forall A (p : A -> bool) l l', Permutation l l' -> List.length (filter p l) = List.length (filter p l').
Proof.
  intros A p l l' H. induction H as [|x l l' H IH|x y l|l l' l'' H1 IH1 H2 IH2]; cbn [filter]; try (rewrite IH1; exact IH2); try reflexivity.
  - destruct (p x); cbn; lia.
  - destruct (p x), (p y); reflexivity.
Qed.

(** The element at a position of a sorted list does not depend on the order of the input. *)
Lemma pos_unique_le : forall l l' i v v', Permutation l l' -> StronglySorted Qle l -> StronglySorted Qle l' ->
  nth_error l i = Some v -> nth_error l' i = Some v' -> v' <= v.
Proof.
  intros l l' i v v' P S S' H H'. apply Qnot_lt_le. intro L.
  pose proof (below_le l' i v' v' S' H' (Qle_refl _)) as B1. unfold below in B1.
  destruct (sorted_split l i v S H) as (l1 & l2 & E & LE & A & B). rewrite <- (filter_perm _ _ _ _ P) in B1. subst l.
  rewrite filter_app in B1. cbn [filter] in B1.
  assert (T : forall x, x <= v -> negb (Qle_bool v' x) = true).
  { intros x X. destruct (Qle_bool v' x) eqn:Q; [|reflexivity]. apply Qle_bool_iff in Q. exfalso. apply (Qlt_irrefl v). eapply Qlt_le_trans; [exact L|]. eapply Qle_trans; eassumption. }
  rewrite (T v (Qle_refl _)) in B1. rewrite app_length in B1. cbn [List.length] in B1.
  assert (F : filter (fun x => negb (Qle_bool v' x)) l1 = l1).
  { clear - A T. induction A as [|x l X A IH]; [reflexivity|]. cbn [filter]. rewrite (T x X), IH. reflexivity. }
  rewrite F in B1. lia.
Qed.
Lemma pos_unique : forall l l' i v v', Permutation l l' -> nth_error (qsort l) i = Some v -> nth_error (qsort l') i = Some v' -> v == v'.
Proof.
  intros l l' i v v' P H H'. assert (PS : Permutation (qsort l) (qsort l')) by (rewrite !qsort_perm; exact P).
  apply Qle_antisym.
  - exact (pos_unique_le _ _ i v' v (Permutation_sym PS) (qsort_sorted _) (qsort_sorted _) H' H).
  - exact (pos_unique_le _ _ i v v' PS (qsort_sorted _) (qsort_sorted _) H H').
Qed.

(** * Sums *)
Lemma sums_fold : forall l a b, fst (fold_left (fun s x => (fst s + x, snd s + x * x)) l (a, b)) == a + qtotal l /\
  snd (fold_left (fun s x => (fst s + x, snd s + x * x)) l (a, b)) == b + qtotal (map (fun x => x * x) l).
Proof.
  induction l as [|x l IH]; intros a b; cbn [fold_left qtotal fold_right map fst snd].
  - split; ring.
  - destruct (IH (a + x) (b + x * x)) as [A B]. rewrite A, B. unfold qtotal. split; ring.
Qed.
Lemma sums_ok : forall l, fst (sums l) == qtotal l /\ snd (sums l) == qtotal (map (fun x => x * x) l).
Proof. intro l. unfold sums. destruct (sums_fold l 0 0) as [A B]. rewrite A, B. split; ring. Qed.
Lemma qtotal_perm : forall l l', Permutation l l' -> qtotal l == qtotal l'.
Proof.
  intros l l' H. unfold qtotal. induction H; cbn [fold_right]; try (rewrite IHPermutation; reflexivity); try ring; try reflexivity.
  etransitivity; eassumption.
Qed.
Lemma qlen_cons : forall x l, qlen (x :: l) == qlen l + 1.
Proof. intros x l. unfold qlen. cbn [List.length]. rewrite Nat2Z.inj_succ. unfold Z.succ. rewrite inject_Z_plus. reflexivity. Qed.
Lemma qlen_pos : forall l, l <> [] -> 0 < qlen l.
Proof.
  intros [|x l] H; [congruence|]. rewrite qlen_cons. assert (0 <= qlen l); [|lra].
  unfold qlen. change 0 with (inject_Z 0). rewrite <- Zle_Qle. lia.
Qed.
Lemma qtotal_bounds : forall l a b, Forall (fun x => a <= x /\ x <= b) l -> a * qlen l <= qtotal l /\ qtotal l <= b * qlen l.
Proof.
  intros l a b H. induction H as [|x l [A B] H [I J]].
  - change (qlen []) with 0. cbn [qtotal fold_right]. split; rewrite Qmult_0_r; apply Qle_refl.
  - cbn [qtotal fold_right]. fold (qtotal l). rewrite qlen_cons. split; [setoid_replace (a * (qlen l + 1)) with (a + a * qlen l) by ring|setoid_replace (b * (qlen l + 1)) with (b + b * qlen l) by ring]; apply Qplus_le_compat; assumption.
Qed.
Lemma deviations : forall l m, qtotal (map (fun x => (x - m) * (x - m)) l) ==
  qtotal (map (fun x => x * x) l) - (2#1) * m * qtotal l + qlen l * (m * m).
Proof.
  intros l m. induction l as [|x l IH].
  - change (qlen []) with 0. cbn [map qtotal fold_right]. ring.
  - cbn [map qtotal fold_right]. fold (qtotal l). fold (qtotal (map (fun x => x * x) l)). fold (qtotal (map (fun x => (x - m) * (x - m)) l)).
    rewrite IH, qlen_cons. ring.
Qed.
Lemma variance_formula : forall l, l <> [] -> ~ qlen l - 1 == 0 ->
  (qlen l * qtotal (map (fun x => x * x) l) - qtotal l * qtotal l) / (qlen l * (qlen l - 1)) == sample_variance l.
Proof.
  intros l N M. unfold sample_variance. rewrite deviations. unfold average. pose proof (qlen_pos l N) as P.
  field. split; [|exact M]. intro E. rewrite E in P. apply (Qlt_irrefl 0). exact P.
Qed.
Lemma sq_nonneg : forall x : Q, 0 <= x * x.
Proof. intro x. nra. Qed.
Lemma qtotal_nonneg : forall l, Forall (fun x => 0 <= x) l -> 0 <= qtotal l.
Proof. intros l H. induction H; cbn [qtotal fold_right]; [lra|]. fold (qtotal l). lra. Qed.
Lemma squares_nonneg : forall l m, Forall (fun x => 0 <= x) (map (fun x => (x - m) * (x - m)) l).
Proof. intros l m. apply Forall_forall. intros y H. apply in_map_iff in H as (x & <- & _). apply sq_nonneg. Qed.
Lemma squares_zero : forall l m, qtotal (map (fun x => (x - m) * (x - m)) l) == 0 -> Forall (fun x => x == m) l.
Proof.
  induction l as [|x l IH]; intros m H; [constructor|]. cbn [map qtotal fold_right] in H. fold (qtotal (map (fun x => (x - m) * (x - m)) l)) in H.
  pose proof (qtotal_nonneg _ (squares_nonneg l m)) as P. pose proof (sq_nonneg (x - m)) as Q.
  constructor; [|apply IH; lra]. assert (Z : (x - m) * (x - m) == 0) by lra. apply Qmult_integral in Z. destruct Z; lra.
Qed.

(** * The whole computation *)
Lemma compute_some : forall values, values <> [] -> exists s, compute values = Some s /\
  st_sum s == qtotal values /\ st_mean s == average values /\ st_size s = List.length values /\
  (List.length values = 1%nat -> st_variance s = None) /\
  ((2 <= List.length values)%nat -> exists v, st_variance s = Some v /\ v == sample_variance values) /\
  exists a b i j, nth_error (qsort values) i = Some a /\ nth_error (qsort values) j = Some b /\ st_median s = (if Nat.even (List.length values) then (a + b) / 2 else a) /\
    i = Nat.div2 (List.length values) /\ j = (if Nat.even (List.length values) then Nat.div2 (List.length values) - 1 else i)%nat.
Proof.
  intros values N. pose proof (qsort_perm values) as P. pose proof (Permutation_length P) as L.
  assert (NE : (0 < List.length values)%nat) by (destruct values; [congruence|cbn; lia]).
  pose proof (sums_ok (qsort values)) as [S1 S2].
  rewrite (qtotal_perm _ _ P) in S1. rewrite (qtotal_perm _ _ (Permutation_map (fun x => x * x) P)) in S2.
  unfold compute. destruct values as [|x0 vs] eqn:EV; [congruence|]. rewrite <- EV in *. clear EV x0 vs.
  destruct (sums (qsort values)) as [s q]. cbn [fst snd] in *. rewrite L.
  assert (D : (Nat.div2 (List.length values) < List.length values)%nat) by (apply Nat.lt_div2; exact NE).
  assert (G : forall k, (k < List.length values)%nat -> exists a, nth_error (qsort values) k = Some a).
  { intros k K. destruct (nth_error (qsort values) k) as [a|] eqn:E; [exists a; reflexivity|]. apply nth_error_None in E. lia. }
  assert (NV : forall k : nat, (2 <= List.length values)%nat -> (qn (List.length values) * q - s * s) / (qn (List.length values) * (qn (List.length values) - 1)) == sample_variance values).
  { intros _ K. change (qn (List.length values)) with (qlen values). rewrite S1, S2. apply variance_formula; [exact N|].
    unfold qlen. intro Z. assert (Z' : inject_Z (Z.of_nat (List.length values)) == inject_Z 1) by (change (inject_Z 1) with 1; lra).
    unfold Qeq, inject_Z in Z'. cbn [Qnum Qden] in Z'. lia. }
  assert (VP : forall m sz med, let r := {| st_sum := s; st_mean := m; st_variance := if Nat.eqb (List.length values) 1 then None else Some ((qn (List.length values) * q - s * s) / (qn (List.length values) * (qn (List.length values) - 1))); st_median := med; st_size := sz |} in
     (List.length values = 1%nat -> st_variance r = None) /\ ((2 <= List.length values)%nat -> exists v, st_variance r = Some v /\ v == sample_variance values)).
  { intros m sz med. cbn [st_variance]. split; [intros ->; reflexivity|]. intro K. destruct (Nat.eqb_spec (List.length values) 1) as [X|X]; [lia|].
    eexists. split; [reflexivity|]. apply (NV 0%nat). exact K. }
  unfold at_pos. destruct (G _ D) as [a A]. rewrite A.
  destruct (Nat.even (List.length values)) eqn:EV.
  - destruct (G (Nat.div2 (List.length values) - 1)%nat) as [b B]; [lia|]. rewrite B.
    eexists. split; [reflexivity|]. cbn [st_sum st_mean st_size]. split; [exact S1|]. split; [rewrite S1; reflexivity|]. split; [reflexivity|].
    destruct (VP (s / qn (List.length values)) (List.length values) ((a + b) / 2)) as [V1 V2]. split; [exact V1|]. split; [exact V2|].
    exists a, b, (Nat.div2 (List.length values)), (Nat.div2 (List.length values) - 1)%nat. auto.
  - eexists. split; [reflexivity|]. cbn [st_sum st_mean st_size]. split; [exact S1|]. split; [rewrite S1; reflexivity|]. split; [reflexivity|].
    destruct (VP (s / qn (List.length values)) (List.length values) a) as [V1 V2]. split; [exact V1|]. split; [exact V2|].
    exists a, a, (Nat.div2 (List.length values)), (Nat.div2 (List.length values)). auto.
Qed.
Lemma app_inj_length : forall A (a b c d : list A), a ++ b = c ++ d -> List.length a = List.length c -> a = c /\ b = d.
Proof.
  induction a as [|x a IH]; intros b [|y c] d E L; cbn in *; try discriminate; [auto|].
  injection E as -> E. injection L as L. destruct (IH _ _ _ E L) as [-> ->]. auto.
Qed.
