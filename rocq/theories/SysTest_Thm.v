(** Theorems: the sign test and the signed-rank test. *)
From Coq Require Import List Arith ZArith QArith Lia Lqa Bool.
From Verif Require Import Base Order_Model Order_Spec Order_Proofs1 Order_Proofs2 Order_Thm Binom_Model Binom_Spec Binom_Proofs
  SysTest_Model SysTest_Spec SysTest_Proofs.
Import ListNotations.
Local Open Scope nat_scope.

Lemma hi_lo pcts t1 t2 : (hi pcts t1 t2 = t1 /\ lo pcts t1 t2 = t2 \/ hi pcts t1 t2 = t2 /\ lo pcts t1 t2 = t1)
  /\ (sum_of (lo pcts t1 t2) pcts <= sum_of (hi pcts t1 t2) pcts)%Z.
Proof. unfold hi, lo. destruct (Z.ltb_spec (sum_of t2 pcts) (sum_of t1 pcts)); split; auto; lia. Qed.
Lemma half_up z : z / 2 + z mod 2 = z - z / 2.
Proof. pose proof (Nat.div_mod_eq z 2). lia. Qed.

(** With at most 20 speakers the sign test gives the exact two-sided probability of the split of the
    speakers between the systems, the ones with about the same percentages shared out equally, and
    reports a difference exactly when it is below 5 percent.  [hi] is the system with the larger total. *)
Theorem C32_probability : forall thr pcts t1 t2 zb, (0 <= thr)%Z -> t1 <> t2 -> in_table t1 pcts -> in_table t2 pcts ->
  length pcts <= 20 ->
  exists r c h l, compute_signtest thr pcts t1 t2 zb = Ok (r, c)
    /\ (h = t1 /\ l = t2 \/ h = t2 /\ l = t1) /\ (sum_of l pcts <= sum_of h pcts)%Z
    /\ (let x := column h pcts in let y := column l pcts in
        c == two_sided (more thr x y + same thr x y / 2) (less thr x y + (same thr x y - same thr x y / 2)))%Q
    /\ (r <> 0%Z <-> (c < 1 # 20)%Q).
Proof.
  intros thr pcts t1 t2 zb Ht N H1 H2 Hn. pose proof (signtest_ok thr Ht pcts t1 t2 zb H1 H2) as E. cbv zeta in E.
  destruct (hi_lo pcts t1 t2) as [HL S].
  set (ds := cols_diffs pcts (hi pcts t1 t2) (lo pcts t1 t2)) in *.
  pose proof (three thr Ht ds) as T. assert (L : length ds = length pcts) by apply cols_length.
  eexists _, _, _, _. split; [exact E|]. split; [exact HL|]. split; [exact S|].
  pose proof (analysis_result (nmore thr ds) (nless thr ds) (nsame thr ds) zb) as [R1 R2]. cbv zeta in R1, R2.
  split.
  - cbv zeta. rewrite analysis_small by lia. rewrite half_up. reflexivity.
  - rewrite <- R1. destruct (_ =? _); lia.
Qed.
Print Assumptions C32_probability.

(** Whenever it reports a difference and the totals differ, it names the system with the better total:
    1 names the second, -1 the first. *)
Theorem C32_names_the_better_average : forall thr pcts t1 t2 zb r c, (0 <= thr)%Z -> t1 <> t2 ->
  in_table t1 pcts -> in_table t2 pcts -> sum_of t1 pcts <> sum_of t2 pcts ->
  compute_signtest thr pcts t1 t2 zb = Ok (r, c) ->
  r = 0%Z \/ (r = 1%Z /\ better zb (sum_of t2 pcts) (sum_of t1 pcts)) \/ (r = (-1)%Z /\ better zb (sum_of t1 pcts) (sum_of t2 pcts)).
Proof.
  intros thr pcts t1 t2 zb r c Ht N H1 H2 Hs E. rewrite (signtest_ok thr Ht pcts t1 t2 zb H1 H2) in E. cbv zeta in E.
  apply (f_equal (fun x => match x with Ok p => fst p | _ => 0%Z end)) in E. cbn [fst] in E. subst r.
  set (ds := cols_diffs pcts (hi pcts t1 t2) (lo pcts t1 t2)).
  pose proof (analysis_result (nmore thr ds) (nless thr ds) (nsame thr ds) zb) as [_ [R|R]]; cbv zeta in R; rewrite R; [left; lia|].
  right. unfold hi. destruct (Z.ltb_spec (sum_of t2 pcts) (sum_of t1 pcts)).
  - rewrite Nat.eqb_refl. destruct zb; [left|right]; split; try reflexivity; unfold better; lia.
  - destruct (Nat.eqb_spec t2 t1); [congruence|]. destruct zb; [right|left]; split; try reflexivity; unfold better; lia.
Qed.
Print Assumptions C32_names_the_better_average.

(** Exchanging the systems exchanges the verdict and keeps the probability, if the totals differ. *)
Lemma hi_swap pcts t1 t2 : sum_of t1 pcts <> sum_of t2 pcts -> hi pcts t2 t1 = hi pcts t1 t2 /\ lo pcts t2 t1 = lo pcts t1 t2.
Proof. intros H. unfold hi, lo. destruct (Z.ltb_spec (sum_of t2 pcts) (sum_of t1 pcts)), (Z.ltb_spec (sum_of t1 pcts) (sum_of t2 pcts)); auto; lia. Qed.
Lemma hi_sign pcts t1 t2 (r : Z) : t1 <> t2 -> 
  (r * (if (hi pcts t1 t2 =? t2)%nat then 1 else -1) = - (r * (if (hi pcts t1 t2 =? t1)%nat then 1 else -1)))%Z.
Proof.
  intros N. destruct (hi_lo pcts t1 t2) as [[[-> _]|[-> _]] _].
  - rewrite Nat.eqb_refl. destruct (Nat.eqb_spec t1 t2); [contradiction|lia].
  - rewrite Nat.eqb_refl. destruct (Nat.eqb_spec t2 t1); [congruence|lia].
Qed.
Theorem C32_swap : forall thr pcts t1 t2 zb, (0 <= thr)%Z -> t1 <> t2 ->
  in_table t1 pcts -> in_table t2 pcts -> sum_of t1 pcts <> sum_of t2 pcts ->
  exists r c, compute_signtest thr pcts t1 t2 zb = Ok (r, c) /\ compute_signtest thr pcts t2 t1 zb = Ok ((- r)%Z, c).
Proof.
  intros thr pcts t1 t2 zb Ht N H1 H2 Hs. rewrite (signtest_ok thr Ht pcts t1 t2 zb H1 H2), (signtest_ok thr Ht pcts t2 t1 zb H2 H1).
  destruct (hi_swap pcts t1 t2 Hs) as [-> ->]. eexists _, _. split; [reflexivity|]. rewrite hi_sign by exact N. reflexivity.
Qed.
Print Assumptions C32_swap.

(** Refuted: the system named is not always the one that is better on more speakers.  Of ten speakers
    the first system has fewer errors on nine, and the second is named. *)
Definition nine_of_ten : list (list Z) := [2000; 3000]%Z :: [2000; 3000]%Z :: [2000; 3000]%Z :: [2000; 3000]%Z :: [2000; 3000]%Z ::
  [2000; 3000]%Z :: [2000; 3000]%Z :: [2000; 3000]%Z :: [2000; 3000]%Z :: [90000; 1000]%Z :: [].
Theorem C32_more_speakers_refuted : exists c, compute_signtest 5 nine_of_ten 0 1 true = Ok (1%Z, c)
  /\ less 5 (column 0 nine_of_ten) (column 1 nine_of_ten) = 9 /\ more 5 (column 0 nine_of_ten) (column 1 nine_of_ten) = 1.
Proof. eexists. vm_compute. auto. Qed.
Print Assumptions C32_more_speakers_refuted.

(** Refuted: with equal totals the first of the two systems in the call is named, whichever it is. *)
Definition equal_totals : list (list Z) := [2000; 3000]%Z :: [2000; 3000]%Z :: [2000; 3000]%Z :: [2000; 3000]%Z :: [2000; 3000]%Z ::
  [2000; 3000]%Z :: [2000; 3000]%Z :: [2000; 3000]%Z :: [2000; 3000]%Z :: [10000; 1000]%Z :: [].
Theorem C32_swap_with_equal_totals_refuted : exists c c', compute_signtest 5 equal_totals 0 1 false = Ok (1%Z, c)
  /\ compute_signtest 5 equal_totals 1 0 false = Ok (1%Z, c').
Proof. eexists _, _. vm_compute. auto. Qed.
Print Assumptions C32_swap_with_equal_totals_refuted.

(** Refuted: with more than 20 speakers the probability is not that of the split.  A difference is
    reported for every split that is not even. *)
Theorem C32_many_speakers_refuted : forall thr pcts t1 t2 zb, (0 <= thr)%Z -> t1 <> t2 -> in_table t1 pcts -> in_table t2 pcts ->
  20 < length pcts ->
  exists r c h l, compute_signtest thr pcts t1 t2 zb = Ok (r, c)
    /\ (h = t1 /\ l = t2 \/ h = t2 /\ l = t1) /\ (sum_of l pcts <= sum_of h pcts)%Z
    /\ (let x := column h pcts in let y := column l pcts in
        more thr x y + same thr x y / 2 <> less thr x y + (same thr x y - same thr x y / 2) -> r <> 0%Z).
Proof.
  intros thr pcts t1 t2 zb Ht N H1 H2 Hn. pose proof (signtest_ok thr Ht pcts t1 t2 zb H1 H2) as E. cbv zeta in E.
  destruct (hi_lo pcts t1 t2) as [HL S].
  set (ds := cols_diffs pcts (hi pcts t1 t2) (lo pcts t1 t2)) in *.
  pose proof (three thr Ht ds) as T. assert (L : length ds = length pcts) by apply cols_length.
  eexists _, _, _, _. split; [exact E|]. split; [exact HL|]. split; [exact S|]. cbv zeta. intros D.
  pose proof (analysis_result (nmore thr ds) (nless thr ds) (nsame thr ds) zb) as [R1 _]. cbv zeta in R1.
  assert (fst (sign_test_analysis (nmore thr ds) (nless thr ds) (nsame thr ds) zb) <> 0%Z).
  { apply R1. apply analysis_large; [lia|]. rewrite half_up. exact D. }
  destruct (_ =? _); lia.
Qed.
Print Assumptions C32_many_speakers_refuted.

(** * the signed-rank test *)
Definition sides (thr : Z) (pcts : list (list Z)) (h l : nat) : list bool :=
  for_first thr (diffs (column h pcts) (column l pcts)) true.

Lemma z_score_ok : z_score = (1960 # 1000)%Q. Proof. reflexivity. Qed.

Definition n_var (n : Z) : Q := (inject_Z (n * (n + 1) * (2 * n + 1)) / 24)%Q.
Definition n_mean (n : Z) : Q := (inject_Z (n * (n + 1)) / 4)%Q.

Lemma wilcoxon_ok qsort thr pcts t1 t2 zb : qsort_contract qsort -> (0 <= thr)%Z -> in_table t1 pcts -> in_table t2 pcts ->
  let h := hi pcts t1 t2 in let l := lo pcts t1 t2 in
  let ds := diffs (column h pcts) (column l pcts) in
  let s := sides thr pcts h l in
  exists sa sb, (sa == rank_sum ds ds true s)%Q /\ (sb == rank_sum ds ds false s)%Q
    /\ (sa + sb == inject_Z (Z.of_nat (length pcts * (length pcts + 1))) / 2)%Q
    /\ compute_wilcoxon thr qsort pcts t1 t2 zb =
       Ok ((fst (wilcoxon_analysis (tally true s) (tally false s) sa sb zb) * (if (h =? t1)%nat then 1 else -1))%Z,
           snd (wilcoxon_analysis (tally true s) (tally false s) sa sb zb)).
Proof.
  intros Hq Ht H1 H2 h l ds s. unfold compute_wilcoxon. rewrite tptr_ok by assumption. cbn [rbind]. fold h l.
  pose proof (diff_loop_ok h l pcts [] (hi_in _ _ _ H1 H2) (lo_in _ _ _ H1 H2)) as D.
  cbn [app length] in D. rewrite D. cbn [rbind]. change (cols_diffs pcts h l) with ds.
  assert (Ld : length ds = length pcts) by apply cols_length.
  assert (Lr : length (repeat 0%Q (length pcts)) = length (map Z.abs ds)) by (rewrite repeat_length, map_length; auto).
  destruct (C30_mean_ranks qsort Hq (map Z.abs ds) Increasing (repeat 0%Q (length pcts)) Lr) as (rk & E & Lk & M).
  destruct (C30_ranks qsort Hq (map Z.abs ds) Increasing (repeat 0%Q (length pcts)) Lr) as (rk' & ptr & E' & _ & _ & Sum).
  rewrite E in E'. injection E' as _ <-.
  rewrite E. cbn [rbind]. rewrite map_length in Lk, M.
  destruct (wilcoxon_loop_ok thr Ht ds rk [] [] 0 {| w_plus := 0; w_minus := 0; w_plus_rank := 0; w_minus_rank := 0 |} Lk eq_refl)
    as (w & W & P1 & P2 & P3 & P4).
  cbn [app length] in W. rewrite Ld in W. rewrite W. cbn [rbind].
  change (0 mod 2 =? 0) with true in *. fold ds in P1, P2, P3, P4. change (for_first thr ds true) with s in *.
  cbn [w_plus w_minus w_plus_rank w_minus_rank] in P1, P2, P3, P4. rewrite Nat.add_0_l in P1, P2.
  exists (w_plus_rank w), (w_minus_rank w). 
  assert (Ls : length s = length rk) by (unfold s, sides; rewrite for_first_length; fold ds; lia).
  split; [|split; [|split]].
  - rewrite P3, Qplus_0_l. apply rsum_rank_sum; assumption.
  - rewrite P4, Qplus_0_l. apply rsum_rank_sum; assumption.
  - rewrite P3, P4, !Qplus_0_l. rewrite rsum_both by exact Ls. rewrite Sum, map_length, Ld. reflexivity.
  - rewrite P1, P2. destruct (wilcoxon_analysis _ _ _ _ _). reflexivity.
Qed.

(** The two rank sums add up to n (n + 1) / 2 and every speaker is counted for one side: the speakers
    with larger percentages for their system, and half of the others. *)
Theorem C33_rank_sums : forall qsort thr pcts h l, qsort_contract qsort -> (0 <= thr)%Z ->
  let ds := diffs (column h pcts) (column l pcts) in
  let s := sides thr pcts h l in
  (rank_sum ds ds true s + rank_sum ds ds false s == inject_Z (Z.of_nat (length pcts * (length pcts + 1))) / 2)%Q
  /\ tally true s = more thr (column h pcts) (column l pcts) + (same thr (column h pcts) (column l pcts) + 1) / 2
  /\ tally false s = less thr (column h pcts) (column l pcts) + same thr (column h pcts) (column l pcts) / 2.
Proof.
  intros q thr pcts h l Hq Ht ds s. split.
  - assert (Ld : length ds = length pcts) by apply cols_length.
    assert (Lr : length (repeat 0%Q (length pcts)) = length (map Z.abs ds)) by (rewrite repeat_length, map_length; auto).
    destruct (C30_mean_ranks q Hq (map Z.abs ds) Increasing (repeat 0%Q (length pcts)) Lr) as (rk & E & Lk & M).
    destruct (C30_ranks q Hq (map Z.abs ds) Increasing (repeat 0%Q (length pcts)) Lr) as (rk' & ptr & E' & _ & _ & Sum).
    rewrite E in E'. injection E' as _ <-. rewrite map_length in Lk, M.
    assert (Ls : length s = length rk) by (unfold s, sides; rewrite for_first_length; fold ds; lia).
    rewrite <- !(rsum_rank_sum ds ds rk) by assumption. rewrite rsum_both by exact Ls. rewrite Sum, map_length, Ld. reflexivity.
  - exact (for_first_counts thr Ht ds true).
Qed.
Print Assumptions C33_rank_sums.

(** With fewer than 1024 speakers a difference is reported exactly when the rank sum, of either system,
    is more than 1.96 standard deviations from its mean.  The verdict then names the system that is
    better on more speakers, the speakers with about the same percentages shared out in turn, and on
    equal numbers the one with the better total. *)
Theorem C33_verdict : forall qsort thr pcts t1 t2 zb, qsort_contract qsort -> (0 <= thr)%Z -> t1 <> t2 ->
  in_table t1 pcts -> in_table t2 pcts -> length pcts < 1024 ->
  exists r c h l, compute_wilcoxon thr qsort pcts t1 t2 zb = Ok (r, c)
    /\ (h = t1 /\ l = t2 \/ h = t2 /\ l = t1) /\ (sum_of l pcts <= sum_of h pcts)%Z
    /\ let ds := diffs (column h pcts) (column l pcts) in
       let s := sides thr pcts h l in
       let n := Z.of_nat (length pcts) in
       (forall side, let W := rank_sum ds ds side s in
          (r <> 0%Z <-> ((1960 # 1000) * (1960 # 1000) * n_var n < (W - n_mean n) * (W - n_mean n))%Q)
          (* the confidence: the two-sided tail of the normal table (C34_table_entry) *)
          /\ (pcts <> [] -> (c == 2 * (1 - normprob ((W - n_mean n) * (W - n_mean n)) (n_var n)))%Q))
       /\ (let larger := if tally true s <? tally false s then l else h in   (* larger percentages on more speakers *)
           let smaller := if tally true s <? tally false s then h else l in
           r = 0%Z \/ (r = 1%Z /\ t2 = if zb then smaller else larger) \/ (r = (-1)%Z /\ t1 = if zb then smaller else larger)).
Proof.
  intros q thr pcts t1 t2 zb Hq Ht N H1 H2 Hn.
  destruct (wilcoxon_ok q thr pcts t1 t2 zb Hq Ht H1 H2) as (sa & sb & Ea & Eb & Sum & E).
  destruct (hi_lo pcts t1 t2) as [HL S]. set (h := hi pcts t1 t2) in *. set (l := lo pcts t1 t2) in *.
  set (ds := diffs (column h pcts) (column l pcts)) in *. set (s := sides thr pcts h l) in *.
  eexists _, _, h, l. split; [exact E|]. split; [exact HL|]. split; [exact S|]. cbv zeta. fold ds s.
  assert (Ls : tally true s + tally false s = length pcts).
  { rewrite tally_both. unfold s, sides. rewrite for_first_length. apply cols_length. }
  set (n := Z.of_nat (length pcts)) in *.
  assert (Var : wrap32 (wrap32 (n * (n + 1)) * (2 * n + 1)) = (n * (n + 1) * (2 * n + 1))%Z).
  { assert (0 <= n < 1024)%Z by lia. assert (n * (n + 1) <= 1023 * 1024)%Z by nia.
    rewrite (wrap32_small (n * (n + 1))) by (split; [nia|]; change (2 ^ 31)%Z with 2147483648%Z; lia).
    apply wrap32_small. change (2 ^ 31)%Z with 2147483648%Z. split; [nia|]. 
    assert (n * (n + 1) * (2 * n + 1) <= 1023 * 1024 * 2047)%Z by (apply Z.mul_le_mono_nonneg; nia). lia. }
  set (res := wilcoxon_analysis (tally true s) (tally false s) sa sb zb) in *.
  set (W := if tally true s <? tally false s then sa else sb).
  assert (Mean : (inject_Z n * inject_Z (n + 1) / 4 == n_mean n)%Q) by (unfold n_mean; rewrite inject_Z_mult; reflexivity).
  assert (Hv : (0 <= n_var n)%Q).
  { unfold n_var. apply Qle_shift_div_l; [reflexivity|]. rewrite Qmult_0_l. change 0%Q with (inject_Z 0). rewrite <- Zle_Qle. subst n. nia. }
  assert (Sig : fst res <> 0%Z <-> ((1960 # 1000) * (1960 # 1000) * n_var n < (W - n_mean n) * (W - n_mean n))%Q).
  { unfold res, wilcoxon_analysis. cbv zeta. cbn [fst]. rewrite Ls. fold n W. rewrite Var. fold (n_var n).
    replace (Qle_bool 0 (n_var n)) with true by (symmetry; apply Qle_bool_iff; exact Hv). rewrite z_score_ok.
    cbn [andb]. destruct (Qle_bool _ ((1960 # 1000) * (1960 # 1000) * n_var n)) eqn:Q; cbn [negb].
    - apply Qle_bool_iff in Q. rewrite Mean in Q. unfold NO_DIFF. split; [congruence|]. intros K. lra.
    - assert (K : ~ ((W - inject_Z n * inject_Z (n + 1) / 4) * (W - inject_Z n * inject_Z (n + 1) / 4) <= (1960 # 1000) * (1960 # 1000) * n_var n)%Q)
        by (rewrite <- Qle_bool_iff; congruence).
      rewrite Mean in K. split; [intros _; apply Qnot_le_lt; exact K|]. intros _. unfold TEST_DIFF. destruct (if zb then _ else _); discriminate. }
  assert (Both : (sa - n_mean n == - (sb - n_mean n))%Q).
  { unfold n_mean, n in *. assert (X : (inject_Z (Z.of_nat (length pcts) * (Z.of_nat (length pcts) + 1)) == inject_Z (Z.of_nat (length pcts * (length pcts + 1))))%Q).
    { replace (Z.of_nat (length pcts) * (Z.of_nat (length pcts) + 1))%Z with (Z.of_nat (length pcts * (length pcts + 1))) by lia. reflexivity. }
    rewrite X. clear - Sum. set (Nq := inject_Z _) in *.
    assert (Y : (sa == Nq / 2 - sb)%Q) by (rewrite <- Sum; ring). rewrite Y. field. }
  split.
  - intros side.
    assert (SQ : ((W - n_mean n) * (W - n_mean n) == (rank_sum ds ds side s - n_mean n) * (rank_sum ds ds side s - n_mean n))%Q).
    { assert (((sa - n_mean n) * (sa - n_mean n) == (sb - n_mean n) * (sb - n_mean n))%Q) by (rewrite Both; ring).
      destruct side; [rewrite <- Ea|rewrite <- Eb]; unfold W; destruct (_ <? _); try reflexivity; [symmetry|]; assumption. }
    split; cycle 1.
    { intros Np. assert (V : (0 < n_var n)%Q).
      { unfold n_var. apply Qlt_shift_div_l; [reflexivity|]. rewrite Qmult_0_l. change 0%Q with (inject_Z 0). rewrite <- Zlt_Qlt. subst n. destruct pcts; [contradiction|cbn [length]; nia]. }
      unfold res, wilcoxon_analysis. cbv zeta. cbn [snd]. rewrite Ls. fold n W. rewrite Var. fold (n_var n).
      destruct (Qle_bool (n_var n) 0) eqn:Q; [apply Qle_bool_iff in Q; lra|].
      assert (M : (normprob ((W - inject_Z n * inject_Z (n + 1) / 4) * (W - inject_Z n * inject_Z (n + 1) / 4)) (n_var n)
        == normprob ((rank_sum ds ds side s - n_mean n) * (rank_sum ds ds side s - n_mean n)) (n_var n))%Q).
      { apply Qle_antisym; apply normprob_mono; rewrite <- SQ, Mean; apply Qle_refl. }
      rewrite M. ring. }
    assert (R : (fst res * (if (h =? t1)%nat then 1 else -1) <> 0 <-> fst res <> 0)%Z) by (destruct (h =? t1)%nat; lia).
    rewrite R, Sig.
    rewrite SQ. reflexivity.
  - assert (F : fst res = 0%Z \/ fst res = if (if zb then negb (tally true s <? tally false s) else (tally true s <? tally false s)) then 1%Z else (-1)%Z).
    { unfold res, wilcoxon_analysis. cbv zeta. cbn [fst]. destruct (_ && _); [right|left; reflexivity].
      unfold TEST_DIFF. destruct (if zb then _ else _); reflexivity. }
    destruct F as [F|F]; rewrite F; [left; lia|]. right.
    destruct HL as [[-> ->]|[-> ->]].
    + rewrite Nat.eqb_refl. destruct zb, (tally true s <? tally false s); cbn [negb]; [right|left|left|right]; split; reflexivity.
    + destruct (Nat.eqb_spec t2 t1); [congruence|]. destruct zb, (tally true s <? tally false s); cbn [negb]; [left|right|right|left]; split; reflexivity.
Qed.
Print Assumptions C33_verdict.

(** Exchanging the systems exchanges the verdict, if the totals differ. *)
Theorem C33_swap : forall qsort thr pcts t1 t2 zb, qsort_contract qsort -> (0 <= thr)%Z -> t1 <> t2 ->
  in_table t1 pcts -> in_table t2 pcts -> sum_of t1 pcts <> sum_of t2 pcts ->
  exists r c, compute_wilcoxon thr qsort pcts t1 t2 zb = Ok (r, c) /\ compute_wilcoxon thr qsort pcts t2 t1 zb = Ok ((- r)%Z, c).
Proof.
  intros q thr pcts t1 t2 zb Hq Ht N H1 H2 Hs.
  destruct (wilcoxon_ok q thr pcts t1 t2 zb Hq Ht H1 H2) as (sa & sb & _ & _ & _ & E).
  cbv zeta in E. set (A := wilcoxon_analysis _ _ _ _ _) in E. clearbody A. destruct A as [A1 A2]. cbn [fst snd] in E.
  rewrite E. eexists _, _. split; [reflexivity|].
  revert E. unfold compute_wilcoxon. rewrite !tptr_ok by assumption. cbn [rbind].
  destruct (hi_swap pcts t1 t2 Hs) as [-> ->]. destruct (diff_loop _ _ _ _ _) as [d| | |]; try discriminate. cbn [rbind].
  destruct (rank_double_arr _ _ _ _) as [[pt rk]| | |]; try discriminate. cbn [rbind].
  destruct (wilcoxon_loop _ _ _ _ _ _ _) as [w| | |]; try discriminate. cbn [rbind].
  destruct (wilcoxon_analysis (w_plus w) _ _ _ _) as [r c]. intros E. injection E as E1 E2. rewrite <- E2, <- E1. rewrite hi_sign by exact N. reflexivity.
Qed.
Print Assumptions C33_swap.

(** Refuted: the system named is not always the one favoured by the rank sums.  Of 30 speakers one
    system has slightly fewer errors on 16 and many more on 14; its rank sum of errors is the larger,
    its total is the worse, and it is named the better. *)
Definition small_wins : list (list Z) :=
  map (fun k => [20000; 20000 + 10 * Z.of_nat k]%Z) (seq 1 16) ++ map (fun k => [60000; 30000 - 10 * Z.of_nat k]%Z) (seq 1 14).
Theorem C33_rank_sums_refuted : exists c, compute_wilcoxon 5 isort small_wins 0 1 true = Ok ((-1)%Z, c)
  /\ (sum_of 1 small_wins < sum_of 0 small_wins)%Z
  /\ let ds := diffs (column 0 small_wins) (column 1 small_wins) in
     (rank_sum ds ds false (for_first 5 ds true) < rank_sum ds ds true (for_first 5 ds true))%Q.
Proof. eexists. split; [vm_compute; reflexivity|]. vm_compute. auto. Qed.
Print Assumptions C33_rank_sums_refuted.

(** Refuted from 1024 speakers on: the variance is computed on ints, overflows, and no difference is
    ever reported. *)
Theorem C33_many_speakers_refuted : forall qsort thr pcts t1 t2 zb, qsort_contract qsort -> (0 <= thr)%Z ->
  in_table t1 pcts -> in_table t2 pcts -> Z.of_nat (length pcts) = 1024%Z ->
  exists c, compute_wilcoxon thr qsort pcts t1 t2 zb = Ok (0%Z, c).
Proof.
  intros q thr pcts t1 t2 zb Hq Ht H1 H2 Hn.
  destruct (wilcoxon_ok q thr pcts t1 t2 zb Hq Ht H1 H2) as (sa & sb & _ & _ & _ & ->).
  eexists. set (s := sides _ _ _ _).
  assert (Ls : tally true s + tally false s = length pcts).
  { rewrite tally_both. unfold s, sides. rewrite for_first_length. apply cols_length. }
  unfold wilcoxon_analysis. cbv zeta. cbn [fst]. rewrite Ls, Hn.
  replace (Qle_bool 0 _) with false by (vm_compute; reflexivity). cbn [andb]. reflexivity.
Qed.
Print Assumptions C33_many_speakers_refuted.

Definition ten_speakers : list (list Z) :=
  [10000; 20000]%Z :: [11000; 21500]%Z :: [12000; 19000]%Z :: [10000; 10003]%Z :: [20000; 31000]%Z :: [15000; 18000]%Z ::
  [13000; 17000]%Z :: [14000; 19000]%Z :: [16000; 19000]%Z :: [17000; 19500]%Z :: [].
Example C32_case : in_table 0 ten_speakers /\ in_table 1 ten_speakers /\ sum_of 0 ten_speakers <> sum_of 1 ten_speakers /\
  exists c, compute_signtest 5 ten_speakers 0 1 true = Ok ((-1)%Z, c) /\ (c < 1 # 20)%Q.
Proof.
  split; [|split; [|split; [vm_compute; discriminate|eexists; vm_compute; split; reflexivity]]];
  intros row H; unfold ten_speakers in H; repeat (destruct H as [<-|H]; [cbn; lia|]); destruct H.
Qed.
Example C33_case : exists c, compute_wilcoxon 5 isort ten_speakers 0 1 true = Ok ((-1)%Z, c) /\ (c < 1 # 20)%Q.
Proof. eexists. vm_compute. split; reflexivity. Qed.
Example C32_many_case : let p := map (fun k => if (k <? 14)%nat then [10000; 20000]%Z else [20000; 10100]%Z) (seq 0 30) in
  exists c, compute_signtest 5 p 0 1 true = Ok (1%Z, c).
Proof. eexists. vm_compute. reflexivity. Qed.
