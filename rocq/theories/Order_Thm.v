(** Sorting and ranking. *)
From Coq Require Import List Arith ZArith NArith QArith Bool Permutation Sorted Lia.
From Verif Require Import Base Order_Model Order_Spec Order_Proofs1 Order_Proofs2 Order_Proofs3.
Import ListNotations.
Local Open Scope nat_scope.

(** ** Sorting numbers by index *)
Theorem C31_double_sort : forall qsort, qsort_contract qsort -> forall o arr,
  sorts o arr (sort_double_arr qsort arr o).
Proof. intros q Hq o arr. apply sort_sorts; [exact Hq|]. intros x y _ _. apply sgn_diff_spec. Qed.
Print Assumptions C31_double_sort.

Theorem C31_int_sort : forall qsort, qsort_contract qsort -> forall o arr,
  (forall a b, In a arr -> In b arr -> - 2 ^ 31 <= a - b < 2 ^ 31)%Z ->
  sorts o arr (sort_int_arr qsort arr o).
Proof.
  intros q Hq o arr H. apply sort_sorts; [exact Hq|]. intros x y Hx Hy. cbv zeta. unfold int_diff.
  apply in_seq in Hx. apply in_seq in Hy. rewrite wrap32_small by (apply H; apply nth_In; lia). lia.
Qed.
Print Assumptions C31_int_sort.

(** a qsort *)
Fixpoint insert (cmp : nat -> nat -> Z) (x : nat) (l : list nat) : list nat :=
  match l with [] => [x] | y :: r => if (cmp x y <=? 0)%Z then x :: l else y :: insert cmp x r end.
Fixpoint isort (cmp : nat -> nat -> Z) (l : list nat) : list nat :=
  match l with [] => [] | x :: r => insert cmp x (isort cmp r) end.
Lemma insert_perm cmp x l : Permutation (insert cmp x l) (x :: l).
Proof. induction l as [|y l IH]; cbn; [reflexivity|]. destruct (_ <=? _)%Z; [reflexivity|]. rewrite IH. apply perm_swap. Qed.
Lemma isort_perm cmp l : Permutation (isort cmp l) l.
Proof. induction l as [|x l IH]; cbn; [reflexivity|]. rewrite insert_perm, IH. reflexivity. Qed.
Lemma isort_contract : qsort_contract isort.
Proof.
  intros cmp l (C1 & C2). split; [apply isort_perm|].
  induction l as [|x l IH]; cbn; [constructor|].
  assert (IH' : StronglySorted (fun x y => (cmp x y <= 0)%Z) (isort cmp l)).
  { apply IH; [intros x' y' H1 H2; apply C1; right; assumption|intros x' y' z' H1 H2 H3; apply C2; right; assumption]. }
  assert (Hl : forall z, In z (isort cmp l) -> In z l) by (intros z; apply Permutation_in, isort_perm).
  clear IH. induction IH' as [|y m Hm IHm Hy]; cbn; [constructor; constructor|].
  destruct (Z.leb_spec (cmp x y) 0) as [H|H].
  - constructor; [constructor; assumption|]. constructor; [exact H|].
    rewrite Forall_forall in *. intros z Hz. apply (C2 x y z); try (left; reflexivity); try (right; apply Hl; now (left + right)); auto.
  - constructor; [apply IHm; intros z Hz; apply Hl; now right|].
    rewrite Forall_forall in *. intros z Hz. apply (Permutation_in _ (insert_perm cmp x m)) in Hz. destruct Hz as [<-|Hz]; [|auto].
    apply C1 in H; [lia| |]; [right; apply Hl; left; reflexivity|left; reflexivity].
Qed.

(** values further apart than an int holds are sorted the wrong way round *)
Theorem C31_int_overflow_refuted : exists arr, qsort_contract isort /\
  (forall a, In a arr -> - 2 ^ 31 <= a < 2 ^ 31)%Z /\ ~ sorts Increasing arr (sort_int_arr isort arr Increasing).
Proof.
  exists [-2000000000; 2000000000]%Z. split; [exact isort_contract|]. split.
  - intros a [<-|[<-|[]]]; lia.
  - intros (_ & S). assert (E : sort_int_arr isort [-2000000000; 2000000000]%Z Increasing = [1; 0]) by (vm_compute; reflexivity).
    rewrite E in S. inversion S as [|? ? _ F]; subst. inversion F as [|? ? K _]; subst. cbn in K. lia.
Qed.

(** ** Sorting strings *)
Lemma lex_le_iff s : forall t, (c_strcmp s t <= 0)%Z <-> lex_le s t.
Proof.
  induction s as [|a s IH]; intros [|b t]; cbn.
  - split; [constructor|lia].
  - split; [constructor|lia].
  - split; [lia|intros K; inversion K].
  - destruct (N.eqb_spec a b) as [->|Hn].
    + rewrite IH. split; [apply lex_same|]. intros K. inversion K; subst; [lia|assumption].
    + destruct (N.ltb_spec a b).
      * split; [intros _; apply lex_less; assumption|lia].
      * split; [lia|]. intros K. inversion K; subst; [lia|congruence].
Qed.
Definition gt_str (o : order) (s t : list N) : bool :=
  match o with Decreasing => (c_strcmp s t <? 0)%Z | Increasing => (0 <? c_strcmp s t)%Z end.
Lemma gt_str_irr o s : gt_str o s s = false.
Proof. assert (E : c_strcmp s s = 0%Z) by (apply c_strcmp_0; reflexivity). destruct o; cbn; rewrite E; reflexivity. Qed.
Lemma gt_str_asym o s t : gt_str o s t = true -> gt_str o t s = false.
Proof. pose proof (c_strcmp_anti s t). destruct o; cbn; rewrite Z.ltb_lt, Z.ltb_ge; lia. Qed.
Lemma gt_str_trans o s t u : gt_str o s t = false -> gt_str o t u = false -> gt_str o s u = false.
Proof.
  pose proof (c_strcmp_anti s t). pose proof (c_strcmp_anti t u). pose proof (c_strcmp_anti s u).
  pose proof (c_strcmp_trans s t u). pose proof (c_strcmp_trans u t s).
  destruct o; cbn; rewrite !Z.ltb_ge; lia.
Qed.
Lemma gt_str_not_after o s t : gt_str o s t = false <-> str_not_after o s t.
Proof.
  pose proof (c_strcmp_anti s t). destruct o; cbn; rewrite Z.ltb_ge, <- lex_le_iff; lia.
Qed.
Lemma str_total o s t : str_not_after o s t -> str_not_after o t s -> s = t.
Proof.
  pose proof (c_strcmp_anti s t). rewrite <- (c_strcmp_0 s t). destruct o; cbn; rewrite <- !lex_le_iff; lia.
Qed.

(** The strings come out as a permutation in dictionary order. *)
Theorem C31_string_sort : forall arr o, exists r, sort_strings_in_place arr o = Ok r
  /\ Permutation r arr /\ StronglySorted (str_not_after o) r.
Proof.
  intros arr o. destruct (bubble_ok (str_exch o) (gt_str o) (fun _ => True)) with (l := arr) as (r & E & Pr & Sr & _).
  - reflexivity.
  - intros; apply gt_str_irr.
  - intros x y _ _. apply gt_str_asym.
  - intros x y z _ _ _. apply gt_str_trans.
  - apply Forall_forall; auto.
  - exists r. split; [exact E|]. split; [exact Pr|]. revert Sr. apply sorted_weaken. intros x y _ _. apply gt_str_not_after.
Qed.
Print Assumptions C31_string_sort.

(** The index array is a permutation along which the strings are in dictionary order, and equal
    strings keep their order. *)
Theorem C31_string_index_sort : forall arr o, exists ind, sort_strings_using_index arr o = Ok ind
  /\ Permutation ind (seq 0 (length arr))
  /\ StronglySorted (fun p q => str_not_after o (nth p arr []) (nth q arr [])) ind
  /\ (forall s, filter (fun p => if list_eq_dec N.eq_dec (nth p arr []) s then true else false) ind
              = filter (fun p => if list_eq_dec N.eq_dec (nth p arr []) s then true else false) (seq 0 (length arr))).
Proof.
  intros arr o. pose (gt := fun p q => gt_str o (nth p arr []) (nth q arr [])).
  destruct (bubble_ok (ind_exch o arr) gt (fun p => p < length arr)) with (l := seq 0 (length arr)) as (r & E & Pr & Sr & Fr).
  - intros x y Hx Hy. unfold ind_exch. rewrite (get_ok arr x []), (get_ok arr y []) by assumption. reflexivity.
  - intros; apply gt_str_irr.
  - intros x y _ _. apply gt_str_asym.
  - intros x y z _ _ _. apply gt_str_trans.
  - apply Forall_forall. intros x Hx. apply in_seq in Hx. lia.
  - rewrite seq_length in E. exists r. split; [exact E|]. split; [exact Pr|]. split.
    + revert Sr. apply sorted_weaken. intros x y _ _. apply gt_str_not_after.
    + intros s. apply Fr. intros a b _ _. unfold gt. destruct (list_eq_dec _ (nth a arr []) s) as [->|]; [|discriminate].
      destruct (list_eq_dec _ (nth b arr []) s) as [->|]; [|discriminate]. intros _ _. apply gt_str_irr.
Qed.
Print Assumptions C31_string_index_sort.

(** ** Ranks *)
(** Every value gets the mean of the ranks it shares with the values equal to it. *)
Theorem C30_mean_ranks : forall qsort, qsort_contract qsort -> forall arr o ranks, length ranks = length arr ->
  exists ranks', rank_double_arr qsort arr o ranks = Ok (sort_double_arr qsort arr o, ranks')
    /\ length ranks' = length arr
    /\ (forall p, p < length arr -> (nth p ranks' 0 == mean_rank o arr (nth p arr 0%Z))%Q).
Proof.
  intros q Hq arr o ranks Hl. unfold rank_double_arr. 
  destruct (ranks_ok arr (sort_double_arr q arr o) o ranks (C31_double_sort q Hq o arr) Hl) as (r & -> & L & H).
  exists r. auto.
Qed.
Print Assumptions C30_mean_ranks.
Theorem C30_mean_ranks_int : forall qsort, qsort_contract qsort -> forall arr o ranks, length ranks = length arr ->
  (forall a b, In a arr -> In b arr -> - 2 ^ 31 <= a - b < 2 ^ 31)%Z ->
  exists ranks', rank_int_arr qsort arr o ranks = Ok (sort_int_arr qsort arr o, ranks')
    /\ length ranks' = length arr
    /\ (forall p, p < length arr -> (nth p ranks' 0 == mean_rank o arr (nth p arr 0%Z))%Q).
Proof.
  intros q Hq arr o ranks Hl Hb. unfold rank_int_arr.
  destruct (ranks_ok arr (sort_int_arr q arr o) o ranks (C31_int_sort q Hq o arr Hb) Hl) as (r & -> & L & H).
  exists r. auto.
Qed.
Print Assumptions C30_mean_ranks_int.

Fixpoint qsum (l : list Q) : Q := match l with [] => 0 | x :: r => x + qsum r end.
(** Equal values get equal ranks, later values greater ranks, and the ranks add up to n(n+1)/2. *)
Theorem C30_ranks : forall qsort, qsort_contract qsort -> forall arr o ranks, length ranks = length arr ->
  exists ranks' ptr, rank_double_arr qsort arr o ranks = Ok (ptr, ranks') /\ length ranks' = length arr
    /\ (forall p q, p < length arr -> q < length arr ->
          (nth p arr 0%Z = nth q arr 0%Z -> (nth p ranks' 0 == nth q ranks' 0)%Q)
          /\ (before o (nth p arr 0%Z) (nth q arr 0%Z) -> (nth p ranks' 0 < nth q ranks' 0)%Q))
    /\ (qsum ranks' == inject_Z (Z.of_nat (length arr * (length arr + 1))) / 2)%Q.
Proof.
  intros q Hq arr o ranks Hl. destruct (C30_mean_ranks q Hq arr o ranks Hl) as (r & E & L & H).
  exists r. eexists. split; [exact E|]. split; [exact L|].
  assert (H2 : forall p, p < length arr -> (nth p r 0 == inject_Z (Z.of_nat (rank2 o arr (nth p arr 0%Z))) / 2)%Q).
  { intros p Hp. rewrite (H p Hp). apply mean_rank2. apply nth_In. exact Hp. }
  split.
  - intros p p' Hp Hp'. split.
    + intros K. rewrite (H p Hp), (H p' Hp'), K. reflexivity.
    + intros K. rewrite (H2 p Hp), (H2 p' Hp').
      pose proof (rank2_lt o arr _ _ (nth_In arr 0%Z Hp) (nth_In arr 0%Z Hp') K) as Hlt.
      unfold Qdiv. apply Qmult_lt_r; [reflexivity|]. rewrite <- Zlt_Qlt. lia.
  - assert (G : forall n m, n <= length arr -> m = skipn n arr -> 
       (qsum (skipn n r) == inject_Z (Z.of_nat (list_sum (map (rank2 o arr) m))) / 2)%Q).
    { intros n. remember (length arr - n) as k eqn:Ek. revert n Ek. induction k as [|k IH]; intros n Ek m Hn Em.
      - rewrite (skipn_all2 arr) in Em by lia. rewrite skipn_all2 by lia. subst m. reflexivity.
      - assert (Hn' : n < length arr) by lia.
        assert (Ea : skipn n arr = nth n arr 0%Z :: skipn (S n) arr).
        { clear - Hn'. revert arr Hn'. induction n as [|n IHn]; intros [|x l] Hl; cbn in Hl; try lia; [reflexivity|]. cbn. apply IHn. lia. }
        assert (Er : skipn n r = nth n r 0%Q :: skipn (S n) r).
        { assert (Hr : n < length r) by lia. clear - Hr. revert r Hr. induction n as [|n IHn]; intros [|x l] Hl; cbn in Hl; try lia; [reflexivity|]. cbn. apply IHn. lia. }
        rewrite Er. subst m. rewrite Ea. cbn [qsum map]. rewrite (IH (S n) ltac:(lia) (skipn (S n) arr) ltac:(lia) eq_refl).
        rewrite (H2 n Hn').
        unfold list_sum at 2. cbn [fold_right]. fold (list_sum (map (rank2 o arr) (skipn (S n) arr))).
        rewrite Nat2Z.inj_add, inject_Z_plus. field. }
    specialize (G 0 arr ltac:(lia) eq_refl). cbn [skipn] in G. rewrite G, rank2_sum. reflexivity.
Qed.
Print Assumptions C30_ranks.

Example C30_case : qsort_contract isort /\
  (exists p r, rank_double_arr isort [5; 2; 5; 9]%Z Increasing [0; 0; 0; 0]%Q = Ok (p, r)
     /\ map Qred r = [5 # 2; 1; 5 # 2; 4]%Q)
  /\ (exists p r, rank_double_arr isort [5; 2; 5; 9]%Z Decreasing [0; 0; 0; 0]%Q = Ok (p, r)
     /\ map Qred r = [5 # 2; 4; 5 # 2; 1]%Q).
Proof. split; [exact isort_contract|]. split; do 2 eexists; (split; [vm_compute; reflexivity|vm_compute; reflexivity]). Qed.
Example C31_case :
  sort_strings_in_place [[98]; [97; 97]; []; [97]]%N Increasing = Ok [[]; [97]; [97; 97]; [98]]%N
  /\ sort_strings_using_index [[98]; [97]; [98]; []]%N Decreasing = Ok [0; 2; 1; 3]
  /\ (forall a b, In a [3; -7]%Z -> In b [3; -7]%Z -> - 2 ^ 31 <= a - b < 2 ^ 31)%Z.
Proof. split; [reflexivity|]. split; [reflexivity|]. intros a b [<-|[<-|[]]] [<-|[<-|[]]]; lia. Qed.
