(** The list printed for a list of strings. *)
From Coq Require Import List Arith ZArith NArith Bool Sorted Permutation Lia.
From Verif Require Import Base Text_Model Text_Spec Word_Model Order_Model Order_Spec Order_Proofs1 Order_Thm Alex_Model Alex_Spec Alex_Proofs1 Alex_Proofs2.
Import ListNotations.
Local Open Scope res_scope.
Local Open Scope nat_scope.

Lemma SS_strict_nth {A} (R Q : A -> A -> Prop) (d : A) u : (forall p q, p < q -> q < length u -> R (nth p u d) (nth q u d)) -> StronglySorted R u.
Proof.
  induction u as [|x u IH]; intros H; constructor.
  - apply IH. intros p q L L'. apply (H (S p) (S q)); cbn; lia.
  - apply Forall_forall. intros y Hy. destruct (In_nth _ _ d Hy) as (q & Hq & <-). apply (H 0 (S q)); cbn; lia.
Qed.
Lemma combine_snd {A B} (u : list A) : forall v : list B, length u = length v -> map snd (combine u v) = v.
Proof. induction u as [|x u IH]; intros [|y v] E; cbn in *; try discriminate; [reflexivity|]. f_equal. apply IH. lia. Qed.
Lemma combine_fst {A B} (u : list A) : forall v : list B, length u = length v -> map fst (combine u v) = u.
Proof. induction u as [|x u IH]; intros [|y v] E; cbn in *; try discriminate; [reflexivity|]. f_equal. apply IH. lia. Qed.
Lemma firstn_len {A} n (v : list A) : n <= length v -> length (firstn n v) = n.
Proof. apply firstn_length_le. Qed.

Section Main.
Variable qsort : (nat -> nat -> Z) -> list nat -> list nat.
Hypothesis Hq : qsort_contract qsort.
Lemma printout_ok e ws l so thr : inv e ws ws l so -> (Z.of_nat (length ws) < 2 ^ 31)%Z -> (thr <= 1)%Z ->
  exists r, lex_printout qsort l thr = Ok r /\ lists e ws r.
Proof.
  intros H Hl Ht. unfold lex_printout. pose proof (i_max _ _ _ _ _ H) as M. pose proof (i_la _ _ _ _ _ H) as La. pose proof (i_lb _ _ _ _ _ H) as Lb.
  destruct (Nat.leb_spec (x_num l) (length (x_a l))); [|lia]. destruct (Nat.leb_spec (x_num l) (length (x_b l))); [|lia]. cbn [andb]. cbv zeta.
  set (arr := firstn (x_num l) (x_a l)). assert (Larr : length arr = x_num l) by (apply firstn_length_le; lia).
  assert (Narr : forall i, i < x_num l -> nth i arr 0%Z = cnt ws i) by (intros i Hi; unfold arr; rewrite nth_firstn by exact Hi; apply (cnt_a e ws l so H); exact Hi).
  destruct (C31_int_sort qsort Hq Decreasing arr) as (Pp & Sp).
  { intros a b Ha Hb. destruct (In_nth _ _ 0%Z Ha) as (i & Hi & <-). destruct (In_nth _ _ 0%Z Hb) as (j & Hj & <-). rewrite Larr in *. rewrite !Narr by assumption.
    pose proof (cnt_max ws i). pose proof (cnt_max ws j). unfold cnt in *. lia. }
  set (ptr := sort_int_arr qsort arr Decreasing) in *. set (tail := skipn (x_num l) (x_b l)). rewrite Larr in Pp.
  assert (Bp : forall x, In x ptr -> x < x_num l) by (intros x Hx; eapply Permutation_in in Hx; [|exact Pp]; apply in_seq in Hx; lia).
  assert (Lp : length ptr = x_num l) by (rewrite (Permutation_length Pp); apply seq_length).
  destruct (runs_ok qsort Hq e ws l so H tail (S (x_num l)) ptr []) as (b & Eb & Pb & Sb); cbn [app length] in *.
  - lia.
  - unfold num. lia.
  - exact Bp.
  - eapply Permutation_NoDup; [apply Permutation_sym; exact Pp|apply seq_NoDup].
  - eapply SS_ext; [|exact Sp]. cbn. intros x y Hx Hy Hle. unfold desc. rewrite <- !Narr by (apply Bp; assumption). exact Hle.
  - constructor.
  - intros x y [].
  - rewrite Eb. cbn [rbind]. rewrite (often_ok e ws l so H) with (thr := thr) by (unfold num; lia). cbn [rbind Nat.add].
    assert (Lbb : length b = x_num l) by (rewrite (Permutation_length Pb); exact Lp).
    assert (Bb : forall x, In x b -> x < x_num l) by (intros x Hx; apply Bp; eapply Permutation_in; eassumption).
    pose proof (lines_ok e ws l so H thr tail Ht b [] 0%Z Bb) as Ln. cbn [app length] in Ln. rewrite Lbb in Ln. rewrite Ln. cbn [rbind].
    set (cb := combine (seq 0 (x_num l)) b).
    assert (Lc : length (map (fun p => (fst p + 1, cnt ws (snd p), word_at ws (snd p))) cb) = x_num l).
    { rewrite map_length. unfold cb. rewrite combine_length, seq_length. lia. }
    assert (Es : map snd (map (fun p => (fst p + 1, cnt ws (snd p), word_at ws (snd p))) cb) = map (word_at ws) b).
    { transitivity (map (word_at ws) (map snd cb)); [rewrite !map_map; reflexivity|]. unfold cb. rewrite combine_snd by (rewrite seq_length; lia). reflexivity. }
    assert (Ps : Permutation (map (word_at ws) b) (firsts ws)).
    { rewrite Pb, Pp. rewrite <- (i_num _ _ _ _ _ H). unfold word_at. rewrite (Order_Proofs1.map_nth_seq (firsts ws) []). reflexivity. }
    eexists. split; [reflexivity|]. constructor; cbn [li_total li_often li_lines li_sum].
    + symmetry; exact Lc.
    + symmetry; exact Lc.
    + rewrite Z.add_0_l. rewrite (map_ext _ (fun i => (fun s => Z.of_nat (times ws s)) (word_at ws i))) by (intros; reflexivity).
      rewrite <- (map_map (word_at ws) (fun s => Z.of_nat (times ws s))). rewrite (zsum_perm _ _ (Permutation_map _ Ps)).
      apply times_sum; [apply firsts_nodup|]. intros w Hw. apply firsts_in; exact Hw.
    + intros w. rewrite Es. rewrite <- firsts_in. split; intros I; [eapply Permutation_in; [apply Permutation_sym; exact Ps|exact I]|eapply Permutation_in; [exact Ps|exact I]].
    + rewrite Es. eapply Permutation_NoDup; [apply Permutation_sym; exact Ps|apply firsts_nodup].
    + intros k n s I. apply in_map_iff in I as ((a & i) & E & _). cbn in E. injection E as _ <- <-. reflexivity.
    + apply (SS_strict_nth _ (line_before e) (0 + 1, cnt ws 0, word_at ws 0)). rewrite Lc. intros p q L L'.
      assert (Nf : forall k, k < x_num l -> nth k (map (fun p => (fst p + 1, cnt ws (snd p), word_at ws (snd p))) cb) (0 + 1, cnt ws 0, word_at ws 0)
          = (nth k (seq 0 (x_num l)) 0 + 1, cnt ws (nth k b 0), word_at ws (nth k b 0))).
      { intros k Hk. etransitivity; [exact (map_nth (fun p => (fst p + 1, cnt ws (snd p), word_at ws (snd p))) cb (0, 0) k)|].
        unfold cb. rewrite combine_nth by (rewrite seq_length; lia). reflexivity. }
      rewrite !Nf by lia. cbn [line_before].
      pose proof (SS_nth (precedes e ws) 0 b Sb p q L) as X. rewrite Lbb in X. exact (X L').
    + rewrite Lc, map_map. cbn [fst]. rewrite <- (seq_shift (x_num l) 0).
      transitivity (map S (map fst cb)); [rewrite map_map; apply map_ext; intros; lia|]. unfold cb. rewrite combine_fst by (rewrite seq_length; lia). reflexivity.
Qed.
Lemma listing_ok e size ws thr : 0 < size -> Forall (well_formed e) ws -> (Z.of_nat (length ws) < 2 ^ 31)%Z -> (thr <= 1)%Z ->
  exists r, listing_of_words qsort e size ws thr = Ok r /\ lists e ws r.
Proof.
  intros Hs W L T. unfold listing_of_words. destruct (count_all_ok e ws [] _ [] (init_inv e size Hs) W) as (l & so & -> & I). cbn [rbind app] in *.
  eapply printout_ok; eassumption.
Qed.
End Main.
