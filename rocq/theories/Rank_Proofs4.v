(** The printed tables. *)
From Coq Require Import List ZArith QArith Qabs Qround NArith Lqa Lia Arith Bool Permutation Sorted.
From Verif Require Import Base Order_Model Order_Spec Order_Proofs1 Summ_Model Summ_Spec Stats_Spec Summ_Proofs1 Rank_Model Rank_Spec Rank_Proofs1 Rank_Proofs2 Rank_Proofs3.
Import ListNotations.
Local Open Scope nat_scope.

Lemma mapm_known {A} (l : list A) : mapm known (map Some l) = Ok l.
Proof. induction l as [|x l IH]; [reflexivity|]. cbn [map mapm known rbind]. rewrite IH. reflexivity. Qed.
Lemma ptr_in o v ptr i : lists_in_order o v ptr -> In i ptr -> i < length v.
Proof. intros (P & _) I. apply (Permutation_in _ P) in I. apply in_seq in I. lia. Qed.
Lemma ptr_length o v ptr : lists_in_order o v ptr -> length ptr = length v.
Proof. intros (P & _). apply Permutation_length in P. rewrite seq_length in P. exact P. Qed.

Lemma print_ok sqrt f scale names vals ptr ranges : length ranges = length names -> (forall i, In i ptr -> i < length names) ->
  (forall i, i < length names -> shows sqrt f (vals i) (nth i ranges {| a_high := 0; a_low := 0; a_dev := 0; a_mean := 0 |})) ->
  exists es, print_range_graph scale ranges (map Some names) ptr = Ok es /\
    Forall2 (fun i e => range_shown sqrt f scale (nth i names []) (vals i) e) ptr es.
Proof.
  intros L B S. unfold print_range_graph. rewrite mapm_known. cbn [rbind].
  apply mapm_ex. intros p IP. pose proof (B p IP) as PL. rewrite (get_ok names p []) by exact PL. cbn [rbind].
  rewrite (get_ok ranges p {| a_high := 0; a_low := 0; a_dev := 0; a_mean := 0 |}) by lia. cbn [rbind].
  eexists. split; [reflexivity|]. unfold range_shown. cbn [e_name e_range e_graph]. split; [reflexivity|]. split; [apply S, PL|].
  split; [apply graph_len|]. intros k m. apply graph_ok.
Qed.

Section Given.
Variables (qs : (nat -> nat -> Z) -> list nat -> list nat) (sqrt : Q -> Q) (f : formula) (names : list (list N)) (ss : list system) (r : rank) (P : list (list Q)).
Hypotheses (H : qsort_contract qs) (NN : names <> []) (NE : ss <> []) (SO : scored_on names ss).
Hypotheses (T : table_of f ss (length names) P) (SH : shape (length names) (length ss) P)
  (R : ranked (best_first f) names (map y_title ss) P r).

Lemma spk_ne i : i < length names -> spk P i <> [].
Proof. intros I E. pose proof (spk_len _ _ _ _ SH I) as L. rewrite E in L. destruct ss; [congruence|discriminate]. Qed.
Lemma sys_ne j : sys P j <> [].
Proof. intro E. pose proof (sys_len P j) as L. rewrite E in L. destruct SH as (SL & _). rewrite SL in L. destruct names; [congruence|discriminate]. Qed.
Lemma spk_ptr i : In i (r_trt_srt_ind r) -> i < length names.
Proof. destruct R as (_ & _ & _ & _ & _ & _ & _ & _ & _ & O). intro I. apply (ptr_in _ _ _ _ O) in I. rewrite map_length, seq_length in I. exact I. Qed.
Lemma sys_ptr i : In i (r_blk_srt_ind r) -> i < length ss.
Proof. destruct R as (_ & _ & _ & _ & _ & _ & _ & _ & O & _). intro I. apply (ptr_in _ _ _ _ O) in I. rewrite map_length, seq_length, map_length in I. exact I. Qed.
Lemma spk_ptr_len : length (r_trt_srt_ind r) = length names.
Proof. destruct R as (_ & _ & _ & _ & _ & _ & _ & _ & _ & O). apply ptr_length in O. rewrite map_length, seq_length in O. exact O. Qed.
Lemma sys_ptr_len : length (r_blk_srt_ind r) = length ss.
Proof. destruct R as (_ & _ & _ & _ & _ & _ & _ & _ & O & _). apply ptr_length in O. rewrite map_length, seq_length, map_length in O. exact O. Qed.

Lemma ranges_ok scale : exists a b, print_rank_ranges qs sqrt r scale = Ok (a, b) /\
  Forall2 (fun i e => range_shown sqrt f scale (nth i names []) (spk P i) e) (r_trt_srt_ind r) a /\
  Forall2 (fun j e => range_shown sqrt f scale (nth j (map y_title ss) []) (sys P j) e) (r_blk_srt_ind r) b.
Proof.
  pose proof spk_ptr as B1. pose proof sys_ptr as B2.
  destruct R as (RB & RT & RN & RM & RP & _). unfold print_rank_ranges, do_blk_ranges, do_trt_ranges.
  rewrite RB, RT, RN, RM, RP, map_length.
  destruct (mapm_ex (fun i => rbind (row_of (map (map Some) P) (length ss) i) (fun v => range_of qs sqrt v))
     (fun i a => shows sqrt f (spk P i) a) (seq 0 (length names))) as (ra & E1 & F1).
  { intros i I. apply in_seq in I. rewrite (row_ok (length names)) by (auto; lia). cbn [rbind].
    apply range_of_ok; [exact H|apply spk_ne; lia|]. apply (spk_sign f names ss); auto; lia. }
  rewrite E1. cbn [rbind].
  destruct (Forall2_nth_seq _ _ ra {| a_high := 0; a_low := 0; a_dev := 0; a_mean := 0 |} 0 F1) as (L1 & G1).
  destruct (print_ok sqrt f scale names (spk P) (r_trt_srt_ind r) ra L1 B1 G1) as (a & EA & FA).
  rewrite EA. cbn [rbind].
  destruct (mapm_ex (fun i => rbind (column_of (map (map Some) P) (length names) i) (fun v => range_of qs sqrt v))
     (fun i a => shows sqrt f (sys P i) a) (seq 0 (length ss))) as (rb & E2 & F2).
  { intros i I. apply in_seq in I. rewrite (column_ok _ (length ss)) by (auto; lia). cbn [rbind].
    apply range_of_ok; [exact H|apply sys_ne|]. apply (sys_sign f names ss); auto; lia. }
  rewrite E2. cbn [rbind].
  destruct (Forall2_nth_seq _ _ rb {| a_high := 0; a_low := 0; a_dev := 0; a_mean := 0 |} 0 F2) as (L2 & G2).
  destruct (print_ok sqrt f scale (map y_title ss) (sys P) (r_blk_srt_ind r) rb) as (b & EB & FB).
  { rewrite map_length. exact L2. }
  { rewrite map_length. exact B2. }
  { rewrite map_length. exact G2. }
  rewrite EB. cbn [rbind]. exists a, b. auto.
Qed.

(** ** GNUPLOT *)
Lemma median_of_ok v : v <> [] -> exists m, median_of qs v = Ok m /\ exists a b, lower_median a v /\ upper_median b v /\ (m == (a + b) / 2)%Q.
Proof.
  intro N. unfold median_of. destruct (rank_pcts_ok qs v Increasing H) as (ptr & rk & E & _). rewrite E. cbn [rbind].
  destruct (median_ok v ptr N (rank_pcts_sorts qs v ptr rk H E)) as (m & C & M). exists m. split; [|exact M].
  cbv zeta. rewrite even_mod. destruct (Nat.even (length v)).
  - destruct C as (p & x' & p1 & y' & G1 & G2 & H2 & G3 & G4 & _ & _ & ->).
    rewrite G1. cbn [rbind]. rewrite G2. cbn [rbind]. destruct (Nat.eqb_spec (length v / 2) 0) as [Z|_]; [congruence|].
    rewrite G3. cbn [rbind]. rewrite G4. reflexivity.
  - destruct C as (p & G1 & _ & G2). rewrite G1. exact G2.
Qed.
Lemma entry_ok pos name v : v <> [] -> exists e, entry_of qs pos name v = Ok e /\ plotted pos name v e.
Proof.
  intro N. unfold entry_of. destruct (median_of_ok v N) as (m & -> & M). cbn [rbind]. eexists. split; [reflexivity|].
  unfold plotted. cbn [n_pos n_label n_points n_mean n_median]. repeat split; [apply mean_ok|exact M].
Qed.
Lemma plots_of n ptr nm vals (g : nat -> res entry) : length ptr = n ->
  (forall k i, nth_error ptr k = Some i -> exists e, g k = Ok e /\ plotted (k + 1) (nth i nm []) (vals i) e) ->
  exists es, mapm g (seq 0 n) = Ok es /\ plots ptr nm vals es.
Proof.
  intros L G. destruct (mapm_ex g (fun k e => forall i, nth_error ptr k = Some i -> plotted (k + 1) (nth i nm []) (vals i) e) (seq 0 n)) as (es & E & F).
  { intros k K. apply in_seq in K. destruct (nth_error_ex ptr k) as (i & I); [lia|]. destruct (G k i I) as (e & Eg & PL).
    exists e. split; [exact Eg|]. intros i' I'. congruence. }
  exists es. split; [exact E|].
  destruct (Forall2_nth_seq _ _ es {| n_pos := 0; n_label := []; n_points := []; n_mean := 0; n_median := 0 |} 0 F) as (LE & GE).
  split; [lia|]. intros k i I. assert (K : k < n) by (rewrite <- L; apply nth_error_Some; rewrite I; discriminate).
  eexists. split; [apply nth_error_nth'; lia|]. apply (GE k K i I).
Qed.
Lemma gnu_ok : exists a b, gnu_entries qs r true = Ok a /\ gnu_entries qs r false = Ok b /\
  plots (r_trt_srt_ind r) names (spk P) a /\ plots (r_blk_srt_ind r) (map y_title ss) (sys P) b.
Proof.
  pose proof spk_ptr as B1. pose proof sys_ptr as B2. pose proof spk_ptr_len as L1. pose proof sys_ptr_len as L2.
  destruct R as (RB & RT & RN & RM & RP & _). unfold gnu_entries. rewrite RB, RT, RN, RM, RP, map_length.
  destruct (plots_of (length names) (r_trt_srt_ind r) names (spk P)
    (fun b => rbind (get (r_trt_srt_ind r) b) (fun p => rbind (row_of (map (map Some) P) (length ss) p) (fun v =>
       rbind (get (map Some names) p) (fun n => rbind (known n) (fun n => entry_of qs (b + 1) n v))))) L1) as (a & EA & PA).
  { intros k i I. pose proof (B1 i (nth_error_In _ _ I)) as IL. unfold get at 1. rewrite I. cbn [rbind].
    rewrite (row_ok (length names)) by auto. cbn [rbind]. rewrite (get_ok _ i (Some [])) by (rewrite map_length; exact IL).
    cbn [rbind]. rewrite map_nth. cbn [known rbind]. apply entry_ok. apply spk_ne, IL. }
  destruct (plots_of (length ss) (r_blk_srt_ind r) (map y_title ss) (sys P)
    (fun t => rbind (get (r_blk_srt_ind r) t) (fun p => rbind (column_of (map (map Some) P) (length names) p) (fun v =>
       rbind (get (map y_title ss) p) (fun n => entry_of qs (t + 1) n v)))) L2) as (b & EB & PB).
  { intros k i I. pose proof (B2 i (nth_error_In _ _ I)) as IL. unfold get at 1. rewrite I. cbn [rbind].
    rewrite (column_ok _ (length ss)) by auto. cbn [rbind]. rewrite (get_ok _ i []) by (rewrite map_length; exact IL).
    cbn [rbind]. apply entry_ok. apply sys_ne. }
  exists a, b. auto.
Qed.
Lemma series_ok l : length l <= 32 -> series l = Ok l.
Proof.
  intro L. unfold series. rewrite (mapm_ok _ (fun t => nth t l [])).
  - rewrite map_nth_seq. reflexivity.
  - intros t T'. apply in_seq in T'. rewrite (get_ok l t []) by lia. cbn [rbind]. destruct (Nat.ltb_spec (3 + 3 * t + 3) 100); [reflexivity|lia].
Qed.
Lemma series_undef l : 32 < length l -> series l = Undef.
Proof.
  intro L. unfold series. apply mapm_undef.
  - intros t T'. apply in_seq in T'. rewrite (get_ok l t []) by lia. cbn [rbind]. destruct (3 + 3 * t + 3 <? 100); [right; eexists; reflexivity|left; reflexivity].
  - exists 32. split; [apply in_seq; lia|]. rewrite (get_ok l 32 []) by lia. reflexivity.
Qed.
Lemma gnu2_ok base : length base <= 38 -> length ss <= 32 -> length names <= 32 ->
  exists a b, print_gnu qs r = Ok (a, b) /\ print_gnu2 qs r base = Ok ((a, map y_title ss), (b, names)).
Proof.
  intros LB LS LN. destruct gnu_ok as (a & b & EA & EB & _). exists a, b. unfold print_gnu, print_gnu2, gnu2. rewrite EA, EB. cbn [rbind].
  split; [reflexivity|]. unfold files_fit. destruct (Nat.ltb_spec (length base + 4 + 7) 50); [|lia].
  destruct R as (_ & _ & RN & RM & _). rewrite RN, RM, mapm_known. cbn [rbind]. rewrite !series_ok by (rewrite ?map_length; assumption). reflexivity.
Qed.
Lemma gnu2_undef base : 38 < length base \/ 32 < length ss \/ 32 < length names -> print_gnu2 qs r base = Undef.
Proof.
  intro C. destruct gnu_ok as (a & b & EA & EB & _). unfold print_gnu2, gnu2. unfold files_fit.
  destruct (Nat.ltb_spec (length base + 4 + 7) 50); [|reflexivity]. rewrite EA, EB. cbn [rbind].
  destruct R as (_ & _ & RN & RM & _). rewrite RN, RM, mapm_known. cbn [rbind].
  destruct (Nat.le_gt_cases (length ss) 32).
  - rewrite (series_ok (map y_title ss)) by (rewrite map_length; assumption). cbn [rbind]. rewrite series_undef; [reflexivity|lia].
  - rewrite series_undef; [reflexivity|rewrite map_length; assumption].
Qed.
End Given.
