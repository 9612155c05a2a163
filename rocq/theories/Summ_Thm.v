(** C82: the statistics of the sclite reports.  C83: the report by speaker.  C84: the reports of several
    systems. *)
From Coq Require Import List ZArith QArith Lqa Lia Arith Bool Permutation Sorted.
From Verif Require Import Base Stats_Spec Order_Model Order_Spec Summ_Model Summ_Spec Summ_Proofs1 Summ_Proofs2 Summ_Proofs3 Summ_Proofs4.
Import ListNotations.
Local Open Scope nat_scope.

(** the sort of the C library may be any that meets its contract; sorting by insertion does *)
Fixpoint ins_at (cmp : nat -> nat -> Z) (x : nat) (l : list nat) : list nat :=
  match l with [] => [x] | y :: r => if (cmp x y <=? 0)%Z then x :: l else y :: ins_at cmp x r end.
Definition ins_sort (cmp : nat -> nat -> Z) (l : list nat) : list nat := fold_right (ins_at cmp) [] l.

(** ** C82 *)
Theorem C82_doubles qsort l : qsort_contract qsort -> exists s, calc_double qsort l = Ok s /\ describes s l.
Proof. apply calc_double_ok. Qed.
Print Assumptions C82_doubles.
Theorem C82_ints qsort l : qsort_contract qsort -> l <> [] -> Forall (fun z => - 2 ^ 30 <= z < 2 ^ 30)%Z l ->
  exists s, calc_int qsort l = Ok s /\ describes s (map inject_Z l).
Proof. apply calc_int_ok. Qed.
Print Assumptions C82_ints.
(** what the definitions say *)
Theorem C82_meaning s l : l <> [] -> describes s l ->
  between (s_mean s) l /\ in_middle (s_median s) l /\ (0 <= s_var s)%Q /\
  ((s_var s == 0)%Q <-> forall x y, In x l -> In y l -> (x == y)%Q).
Proof. apply describes_facts. Qed.
Print Assumptions C82_meaning.
(** neither the order of the values nor the choice of the sort matters *)
Theorem C82_order qs qs' l l' s s' : qsort_contract qs -> qsort_contract qs' -> Permutation l l' ->
  calc_double qs l = Ok s -> calc_double qs' l' = Ok s' -> same_stat s s'.
Proof.
  intros H H' P E E'. destruct (calc_double_ok qs l H) as (t & T & D). destruct (calc_double_ok qs' l' H') as (t' & T' & D').
  rewrite E in T. rewrite E' in T'. injection T as <-. injection T' as <-. exact (describes_unique s s' l l' P D D').
Qed.
Print Assumptions C82_order.
(** the statistics of no ints read outside an array *)
Theorem C82_no_ints qs : qsort_contract qs -> calc_int qs [] = Undef.
Proof.
  intro H. unfold calc_int, median_int. cbv zeta. unfold sort_int_arr. cbn [length seq].
  assert (C : consistent (index_cmp int_diff Increasing []) []) by (split; intros x; contradiction).
  destruct (H _ [] C) as (P & _). apply Permutation_sym, Permutation_nil in P. rewrite P. reflexivity.
Qed.
Print Assumptions C82_no_ints.

(** ** C83 *)
Section Report.
Variable qsort : (nat -> nat -> Z) -> list nat -> list nat.
Hypothesis QC : qsort_contract qsort.

(** the report is made unless there is no speaker *)
Theorem C83_made do_sm raw weighted gs : gs <> [] -> Forall counts_fit gs -> exists r, system_summary qsort do_sm raw weighted gs = Ok r.
Proof.
  intros N F. destruct (stat_lines_ok qsort QC do_sm raw weighted gs N F) as (st & E & _). unfold system_summary. rewrite E. eexists. reflexivity.
Qed.
Theorem C83_no_speaker do_sm raw weighted : system_summary qsort do_sm raw weighted [] = Undef.
Proof. unfold system_summary, stat_lines. cbn [map]. rewrite C82_no_ints by exact QC. reflexivity. Qed.

Lemma summary_inv do_sm raw weighted gs r : system_summary qsort do_sm raw weighted gs = Ok r ->
  r_titles r = titles do_sm /\ r_speakers r = map (speaker_line do_sm raw weighted) gs /\ r_sum r = sum_line do_sm raw weighted gs /\
  stat_lines qsort do_sm raw weighted gs = Ok (r_stats r).
Proof.
  unfold system_summary. destruct (stat_lines qsort do_sm raw weighted gs) as [st| | |]; try discriminate. cbn [rbind].
  intro E. injection E as <-. auto.
Qed.

Lemma counts_counted g c : counts g c = counted g c.
Proof. destruct c; cbn; lia. Qed.
Lemma weights_weighed g c : (weights g c == weighed g c)%Q.
Proof. destruct c; cbn [weights weighed]; lra. Qed.

(** the line of a speaker *)
Theorem C83_speaker do_sm raw weighted gs r i g : system_summary qsort do_sm raw weighted gs = Ok r -> nth_error gs i = Some g ->
  exists l, nth_error (r_speakers r) i = Some l /\ l_snt l = g_nsent g /\ l_wrd l = g_corr g + g_sub g + g_del g /\
  (l_star l = true <-> raw = false /\ l_wrd l = 0) /\
  (if raw then l_serr l == nq (g_serr g) else (0 < g_nsent g)%nat -> l_serr l * nq (g_nsent g) == 100 * nq (g_serr g))%Q /\
  forall k c, nth_error (r_titles r) k = Some c ->
    (* counters *)
    (raw = true -> cell k l == nq (counts g c))%Q /\
    (* percentages of the reference words *)
    (raw = false -> weighted = false -> l_star l = false ->
       cell k l * nq (g_corr g + g_sub g + g_del g + g_mrg g + g_spl g)%nat == 100 * nq (counts g c))%Q /\
    (raw = false -> weighted = true -> ~ w_ref g == 0 -> cell k l * w_ref g == 100 * weights g c)%Q /\
    (* no reference words: counters *)
    (raw = false -> weighted = false -> plain g -> l_star l = true -> cell k l == nq (counts g c))%Q.
Proof.
  intros E G. destruct (summary_inv _ _ _ _ _ E) as (TI & SP & _ & _). rewrite SP, TI.
  exists (speaker_line do_sm raw weighted g). split; [rewrite nth_error_map, G; reflexivity|].
  split; [reflexivity|]. split; [reflexivity|]. rewrite star_iff. change (l_wrd (speaker_line do_sm raw weighted g)) with (word_num g).
  split. { destruct raw; cbn [negb andb]; [split; [discriminate|intros [X _]; discriminate]|]. rewrite Nat.eqb_eq. tauto. }
  split. { cbn [l_serr speaker_line]. unfold serr_value. destruct raw; [reflexivity|]. intro P. apply pct_mul. pose proof (nq_pos _ P). intro. lra. }
  intros k c K. assert (KL : k < length (row do_sm)) by (rewrite row_titles; apply nth_error_Some; congruence).
  rewrite (nth_cells _ _ _ _ _ KL). rewrite row_titles, (nth_error_nth _ _ Corr K). rewrite counts_counted.
  split; [intros ->; reflexivity|]. split; [|split].
  - intros -> ->. cbn [negb andb]. intro W. apply Nat.eqb_neq in W.
    assert (P : 0 < allrefs g) by (unfold allrefs, word_num in *; lia). rewrite (value_words _ _ P).
    replace (g_corr g + g_sub g + g_del g + g_mrg g + g_spl g) with (allrefs g) by (unfold allrefs; lia).
    apply pct_mul. pose proof (nq_pos _ P). intro. lra.
  - intros -> -> W. unfold value. cbn [orb trefs]. destruct (Qeq_bool (w_ref g) 0) eqn:B; [apply Qeq_bool_iff in B; contradiction|].
    rewrite (pct_mul _ _ W). rewrite weights_weighed. reflexivity.
  - intros -> -> PL. cbn [negb andb]. intro W. apply Nat.eqb_eq in W. rewrite value_none by (rewrite plain_refs; assumption). reflexivity.
Qed.

(** the percentages of a speaker with reference words balance *)
Theorem C83_balance do_sm gs r i g l : system_summary qsort do_sm false false gs = Ok r -> nth_error gs i = Some g ->
  nth_error (r_speakers r) i = Some l -> l_star l = false ->
  (if do_sm then cell 0 l + cell 1 l + cell 2 l + cell 4 l + cell 5 l == 100 /\ cell 6 l == cell 1 l + cell 2 l + cell 3 l + cell 4 l + cell 5 l
   else plain g -> cell 0 l + cell 1 l + cell 2 l == 100 /\ cell 4 l == cell 1 l + cell 2 l + cell 3 l)%Q.
Proof.
  intros E G L W. destruct (summary_inv _ _ _ _ _ E) as (TI & SP & _ & _). rewrite SP, nth_error_map, G in L. cbn [option_map] in L. injection L as <-.
  rewrite star_iff in W. cbn [negb andb] in W. apply Nat.eqb_neq in W.
  assert (P : 0 < allrefs g) by (unfold allrefs, word_num in *; lia).
  assert (NZ : ~ (nq (allrefs g) == 0)%Q) by (pose proof (nq_pos _ P); intro; lra).
  destruct do_sm.
  - rewrite !nth_cells by (cbn; lia). cbn [nth row]. rewrite !(value_words _ _ P). cbn [counted].
    rewrite <- !pct_plus, <- !nq_plus. split.
    + replace (g_corr g + g_sub g + g_del g + g_mrg g + g_spl g) with (allrefs g) by (unfold allrefs; lia). apply pct_self, NZ.
    + replace (g_sub g + g_ins g + g_del g + g_mrg g + g_spl g) with (g_sub g + g_del g + g_ins g + g_mrg g + g_spl g) by lia. reflexivity.
  - intros (P1 & P2). rewrite !nth_cells by (cbn; lia). cbn [nth row]. rewrite !(value_words _ _ P). cbn [counted].
    rewrite <- !pct_plus, <- !nq_plus. split.
    + replace (g_corr g + g_sub g + g_del g) with (allrefs g) by (unfold allrefs; lia). apply pct_self, NZ.
    + replace (g_sub g + g_ins g + g_del g + g_mrg g + g_spl g) with (g_sub g + g_del g + g_ins g) by lia. reflexivity.
Qed.

(** the line of the sums, by the lines above it *)
Theorem C83_sum do_sm raw gs r : system_summary qsort do_sm raw false gs = Ok r -> Forall plain gs ->
  l_snt (r_sum r) = list_sum (map l_snt (r_speakers r)) /\ l_wrd (r_sum r) = list_sum (map l_wrd (r_speakers r)) /\
  forall k, k < length (r_titles r) ->
    if raw then (cell k (r_sum r) == qtotal (map (cell k) (r_speakers r)))%Q
    else 0 < l_wrd (r_sum r) ->
      (cell k (r_sum r) * nq (l_wrd (r_sum r)) ==
       qtotal (map (fun l => cell k l * nq (l_wrd l)) (with_words (r_speakers r))) + 100 * qtotal (map (cell k) (without_words (r_speakers r))))%Q.
Proof.
  intros E F. destruct (summary_inv _ _ _ _ _ E) as (TI & SP & SU & _). rewrite SP, SU, TI.
  split; [cbn [l_snt sum_line]; rewrite sum_nat_ok, map_map; reflexivity|].
  split; [cbn [l_wrd sum_line]; rewrite sum_nat_ok, map_map; reflexivity|].
  intros k K. rewrite <- row_titles in K. rewrite (nth_sum _ _ _ _ _ K). cbv zeta. rewrite tot_col_plain. destruct raw.
  - rewrite raw_column by exact K. reflexivity.
  - intro W. rewrite pct_column by assumption. cbn [l_wrd sum_line] in *. rewrite sum_nat_ok in *.
    rewrite tot_ref_plain, plain_refs_sum by exact F. apply pct_mul. pose proof (nq_pos _ W). unfold nq in *. intro. lra.
Qed.

(** mean, deviation and median describe the columns above them, leaving out the speakers without
    reference words; except for the columns of merges and splits *)
Theorem C83_statistics do_sm raw weighted gs r : system_summary qsort do_sm raw weighted gs = Ok r -> Forall counts_fit gs ->
  raw = true \/ one_gap gs ->
  let st := r_stats r in let ls := r_speakers r in
  describes (t_snt st) (map (fun l => nq (l_snt l)) ls) /\ describes (t_wrd st) (map (fun l => nq (l_wrd l)) ls) /\
  describes (t_serr st) (map l_serr ls) /\ length (t_cells st) = length (r_titles r) /\
  (t_plus st = true <-> without_words ls <> []) /\
  forall k c, nth_error (r_titles r) k = Some c -> c <> Mrg -> c <> Spl ->
    exists s, nth_error (t_cells st) k = Some s /\ describes s (map (cell k) (with_words ls)).
Proof.
  intros E F S. cbv zeta. destruct (summary_inv _ _ _ _ _ E) as (TI & SP & _ & ST).
  assert (N : gs <> []) by (intros ->; rewrite C83_no_speaker in E; discriminate).
  destruct (stat_lines_ok qsort QC do_sm raw weighted gs N F) as (st & E' & D1 & D2 & D3 & L & TP & C).
  rewrite ST in E'. injection E' as <-. rewrite SP, TI, !map_map.
  split; [exact D1|]. split; [exact D2|]. split; [exact D3|].
  split; [rewrite L; destruct do_sm; reflexivity|].
  assert (FW : forall p : bool, filter (fun l => eqb p (l_star l)) (map (speaker_line do_sm raw weighted) gs) =
     map (speaker_line do_sm raw weighted) (filter (fun g => eqb p (no_words raw g)) gs)).
  { intro p. clear. induction gs as [|g gs IH]; [reflexivity|]. cbn [map filter]. change (l_star (speaker_line do_sm raw weighted g)) with (no_words raw g).
    destruct (eqb p (no_words raw g)); cbn [map]; rewrite IH; reflexivity. }
  split.
  - rewrite TP. unfold without_words.
    rewrite (filter_ext l_star (fun l => eqb true (l_star l))) by (intro l; destruct (l_star l); reflexivity). rewrite FW.
    rewrite (filter_ext (fun g => eqb true (no_words raw g)) (no_words raw)) by (intro g; destruct (no_words raw g); reflexivity).
    destruct (filter (no_words raw) gs); cbn; split; congruence.
  - intros k c K M1 M2. assert (K' : nth_error (stat_row do_sm) k = Some c).
    { unfold titles, stat_row in *. destruct do_sm; [|exact K].
      do 7 (destruct k as [|k]; [cbn in K |- *; congruence|]). destruct k; cbn in K; discriminate. }
    destruct (C k c K') as (s & NS & CS). exists s. split; [exact NS|].
    rewrite column_values in CS by (auto; destruct c; auto; congruence).
    destruct (calc_double_ok qsort (map (fun g => value raw weighted g c) (filter (fun g => negb (no_words raw g)) gs)) QC) as (s' & E1 & D).
    rewrite CS in E1. injection E1 as <-.
    unfold with_words. rewrite (filter_ext (fun l => negb (l_star l)) (fun l => eqb false (l_star l))) by (intro l; destruct (l_star l); reflexivity). rewrite FW.
    rewrite (filter_ext (fun g => eqb false (no_words raw g)) (fun g => negb (no_words raw g))) by (intro g; destruct (no_words raw g); reflexivity).
    rewrite map_map. rewrite (map_ext _ (fun g => value raw weighted g c)); [exact D|].
    intro g. assert (KL : k < length (row do_sm)) by (rewrite row_titles; apply nth_error_Some; congruence).
    rewrite (nth_cells _ _ _ _ _ KL), row_titles, (nth_error_nth _ _ Corr K). reflexivity.
Qed.
(** under the titles of merges and splits stand the statistics of splits and merges *)
Theorem C83_exchanged raw weighted gs r : system_summary qsort true raw weighted gs = Ok r -> Forall counts_fit gs ->
  without_words (r_speakers r) = [] ->
  nth_error (r_titles r) 4 = Some Mrg /\ nth_error (r_titles r) 5 = Some Spl /\
  exists m s, nth_error (t_cells (r_stats r)) 4 = Some s /\ nth_error (t_cells (r_stats r)) 5 = Some m /\
    describes m (map (cell 4) (r_speakers r)) /\ describes s (map (cell 5) (r_speakers r)).
Proof.
  intros E F W. destruct (summary_inv _ _ _ _ _ E) as (TI & SP & _ & ST). rewrite TI. split; [reflexivity|]. split; [reflexivity|].
  assert (N : gs <> []) by (intros ->; rewrite C83_no_speaker in E; discriminate).
  destruct (stat_lines_ok qsort QC true raw weighted gs N F) as (st & E' & _ & _ & _ & _ & _ & C). rewrite ST in E'. injection E' as <-.
  destruct (C 4 Spl eq_refl) as (s & NS & CS). destruct (C 5 Mrg eq_refl) as (m & NM & CM). exists m, s. split; [exact NS|]. split; [exact NM|].
  assert (Z : filter (no_words raw) gs = []).
  { rewrite SP in W. clear - W. induction gs as [|g gs IH]; [reflexivity|]. unfold without_words in W. cbn [map filter] in *.
    change (l_star (speaker_line true raw weighted g)) with (no_words raw g) in W. destruct (no_words raw g); [discriminate|]. apply IH, W. }
  rewrite column_unmoved in CS, CM by reflexivity. rewrite Z in CS, CM. cbn [length] in CS, CM. rewrite Nat.sub_0_r, firstn_all in CS, CM.
  assert (DD : forall c x, calc_double qsort (map (fun g => value raw weighted g c) gs) = Ok x -> describes x (map (fun g => value raw weighted g c) gs)).
  { intros c x X. destruct (calc_double_ok qsort (map (fun g => value raw weighted g c) gs) QC) as (y & Y & D). rewrite X in Y. injection Y as <-. exact D. }
  rewrite SP, !map_map. split; [exact (DD Mrg m CM)|exact (DD Spl s CS)].
Qed.

(** the sums of weights are cut to whole numbers at every speaker *)
Lemma cut_sum (f : grp -> Q) gs : Forall (fun g => 0 <= f g)%Q gs -> forall t, (0 <= t)%Z ->
  let z := fold_left (fun t g => add_int t (f g)) gs t in
  (t <= z)%Z /\ (inject_Z z <= inject_Z t + qtotal (map f gs) <= inject_Z z + nq (length gs))%Q.
Proof.
  induction 1 as [|g gs G F IH]; intros t T; cbv zeta.
  - cbn [fold_left map]. split; [lia|]. cbn [qtotal fold_right length]. rewrite nq_0. split; lra.
  - cbn [fold_left map]. rewrite qtotal_cons.
    assert (TQ : (0 <= inject_Z t)%Q) by (change 0%Q with (inject_Z 0); rewrite <- Zle_Qle; exact T).
    destruct (trunc_bounds (inject_Z t + f g)) as (U1 & U2 & U3); [lra|].
    assert (TT : (t <= add_int t (f g))%Z).
    { unfold add_int. assert (X : (inject_Z t < inject_Z (trunc (inject_Z t + f g) + 1))%Q) by (rewrite inject_Z_plus; change (inject_Z 1) with 1%Q; lra).
      rewrite <- Zlt_Qlt in X. lia. }
    destruct (IH (add_int t (f g))) as (V1 & V2 & V3); [unfold add_int in *; lia|]. unfold add_int in U1, U2. fold (add_int t (f g)) in U1, U2.
    split; [lia|]. split; [lra|]. change (length (g :: gs)) with (1 + length gs). rewrite nq_plus. change (nq 1) with 1%Q. lra.
Qed.
Theorem C83_weighted_sum do_sm gs r : system_summary qsort do_sm true true gs = Ok r ->
  (forall g c, In g gs -> 0 <= weights g c)%Q ->
  forall k c, nth_error (r_titles r) k = Some c -> c <> Err ->
    (cell k (r_sum r) <= qtotal (map (fun g => weights g c) gs) <= cell k (r_sum r) + nq (length gs))%Q.
Proof.
  intros E W k c K NE. destruct (summary_inv _ _ _ _ _ E) as (TI & _ & SU & _). rewrite SU. rewrite TI in K.
  assert (KL : k < length (row do_sm)) by (rewrite row_titles; apply nth_error_Some; congruence).
  rewrite (nth_sum _ _ _ _ _ KL). cbv zeta. rewrite row_titles, (nth_error_nth _ _ Corr K).
  assert (TC : tot_col true gs c = tot true gs c) by (destruct c; try reflexivity; congruence). rewrite TC. unfold tot, amount.
  destruct (cut_sum (fun g => weighed g c) gs) with (t := 0%Z) as (_ & V); [|lia|].
  - rewrite Forall_forall. intros g G. rewrite <- weights_weighed. apply W, G.
  - cbv zeta in V. rewrite (qtotal_ext (fun g => weights g c) (fun g => weighed g c)) by (intros g _; apply weights_weighed).
    change (inject_Z 0) with 0%Q in V. destruct V as (V1 & V2). split; lra.
Qed.

(** ** C84 *)
Lemma fill_ok raw : forall gs a b, length gs <= length b -> fill raw gs (length a) (a ++ b) = Ok (a ++ map (err_value raw) gs ++ skipn (length gs) b).
Proof.
  induction gs as [|g gs IH]; intros a b L; [reflexivity|]. destruct b as [|x b]; [cbn in L; lia|]. cbn [fill].
  rewrite Order_Proofs3.set_mid. cbn [rbind]. replace (a ++ err_value raw g :: b) with ((a ++ [err_value raw g]) ++ b) by (rewrite <- app_assoc; reflexivity).
  replace (length a + 1) with (length (a ++ [err_value raw g])) by (rewrite app_length; reflexivity).
  rewrite IH by (cbn in L; lia). rewrite <- app_assoc. reflexivity.
Qed.
Lemma repeat_skip {A} (x : A) k n : skipn k (repeat x n) = repeat x (n - k).
Proof. revert n. induction k as [|k IH]; intros [|n]; cbn; try reflexivity. apply IH. Qed.
Lemma system_column_ok raw n0 gs : length gs = n0 -> exists c, system_column qsort raw n0 gs = Ok c /\
  c_speakers c = map (err_value raw) gs /\ describes (c_stat c) (c_speakers c) /\
  c_sum c = (let err := nq (sum_nat errors gs) in if raw then err else pct err (nq (sum_nat refs gs))).
Proof.
  intro L. unfold system_column. assert (FE := fill_ok raw gs [] (repeat 0%Q (n0 + 5))). rewrite repeat_length in FE. cbn [length app] in FE.
  rewrite FE by lia. cbn [rbind]. cbv zeta.
  rewrite firstn_app, map_length, L, Nat.sub_diag. cbn [firstn]. rewrite app_nil_r.
  rewrite (firstn_all2 (n := n0) (map (err_value raw) gs)) by (rewrite map_length; lia).
  destruct (calc_double_ok qsort (map (err_value raw) gs) QC) as (s & E & D). rewrite E. cbn [rbind]. eexists. split; [reflexivity|]. auto.
Qed.
Lemma errors_counted g : errors g = counted g Err.
Proof. unfold errors. cbn [counted]. lia. Qed.
Lemma refs_all g : refs g = allrefs g.
Proof. unfold refs, allrefs. lia. Qed.

(** the table, when all systems have the speakers of the first *)
Theorem C84_table raw g0 rest : let systems := g0 :: rest in
  (forall gs, In gs systems -> length gs = length g0) -> exists cols, n_system_summary qsort raw systems = Ok cols /\ length cols = length systems /\
  forall s gs c, nth_error systems s = Some gs -> nth_error cols s = Some c ->
    length (c_speakers c) = length gs /\ describes (c_stat c) (c_speakers c) /\
    forall i g x, nth_error gs i = Some g -> nth_error (c_speakers c) i = Some x ->
      let n := g_corr g + g_sub g + g_del g + g_mrg g + g_spl g in
      if raw then (x == nq (counts g Err))%Q else (0 < n -> (x * nq n == 100 * nq (counts g Err))%Q) /\ (n = 0 -> (x == 0)%Q).
Proof.
  cbv zeta. intro L. unfold n_system_summary.
  destruct (map_res_ok (system_column qsort raw (length g0)) (g0 :: rest)) as (cols & E & LC & N).
  { intros gs G. destruct (system_column_ok raw (length g0) gs (L gs G)) as (c & C & _). exists c. exact C. }
  exists cols. split; [exact E|]. split; [exact LC|]. intros s gs c S C. destruct (N s gs S) as (c' & C' & SC). rewrite C in C'. injection C' as <-.
  destruct (system_column_ok raw (length g0) gs (L gs (nth_error_In _ _ S))) as (c' & SC' & SP & D & _). rewrite SC in SC'. injection SC' as <-.
  split; [rewrite SP; apply map_length|]. split; [exact D|]. intros i g x G X. rewrite SP, nth_error_map, G in X. cbn [option_map] in X. injection X as <-.
  unfold err_value. rewrite errors_counted, <- counts_counted. destruct raw; [reflexivity|].
  replace (g_corr g + g_sub g + g_del g + g_mrg g + g_spl g) with (refs g) by (unfold refs; lia). split.
  - intro P. apply pct_mul. pose proof (nq_pos _ P). intro. lra.
  - intro P. rewrite pct_0; [reflexivity|]. rewrite P. reflexivity.
Qed.

(** the table and the report of one system agree: on the sum, and on the speakers with reference words *)
Theorem C84_agrees raw systems cols s gs c r : n_system_summary qsort raw systems = Ok cols ->
  (forall gs', In gs' systems -> length gs' = length gs) ->
  nth_error systems s = Some gs -> nth_error cols s = Some c -> system_summary qsort false raw false gs = Ok r ->
  (c_sum c == cell 4 (r_sum r))%Q /\ length (c_speakers c) = length (r_speakers r) /\
  (forall i x l, nth_error (c_speakers c) i = Some x -> nth_error (r_speakers r) i = Some l -> l_star l = false -> (x == cell 4 l)%Q) /\
  (Forall counts_fit gs -> without_words (r_speakers r) = [] -> exists st, nth_error (t_cells (r_stats r)) 4 = Some st /\ same_stat (c_stat c) st).
Proof.
  intros E L S C R. destruct systems as [|g0 rest]; [discriminate|].
  destruct (map_res_ok (system_column qsort raw (length g0)) (g0 :: rest)) as (cols' & E' & _ & N).
  { intros gs' G. destruct (system_column_ok raw (length g0) gs') as (c' & C' & _); [rewrite (L gs' G), (L g0 (or_introl eq_refl)); reflexivity|]. exists c'. exact C'. }
  cbn [n_system_summary] in E. rewrite E in E'. injection E' as <-.
  destruct (N s gs S) as (c' & C' & SC). rewrite C in C'. injection C' as <-.
  destruct (system_column_ok raw (length g0) gs) as (c' & SC' & SP & D & SU); [rewrite (L g0 (or_introl eq_refl)); reflexivity|].
  rewrite SC in SC'. injection SC' as <-.
  destruct (summary_inv _ _ _ _ _ R) as (TI & RS & RU & _).
  assert (VE : forall g, no_words raw g = false -> err_value raw g = value raw false g Err).
  { intros g W. rewrite no_words_worded, word_num_worded, negb_involutive in W. unfold err_value. rewrite errors_counted. destruct raw; [reflexivity|].
    cbn [negb andb] in W. apply Nat.eqb_neq in W. rewrite value_words by (unfold allrefs, word_num in *; lia). rewrite refs_all. reflexivity. }
  assert (CV : forall g, cell 4 (speaker_line false raw false g) = value raw false g Err) by (intro g; apply nth_cells; cbn; lia).
  split; [|split; [|split]].
  - rewrite RU, (nth_sum false raw false gs 4) by (cbn; lia). cbv zeta. cbn [nth row]. rewrite tot_col_plain, tot_ref_plain, SU. cbv zeta. rewrite !sum_nat_ok.
    rewrite (map_ext errors (fun g => counted g Err)) by (intro g; apply errors_counted).
    rewrite (map_ext refs allrefs) by (intro g; apply refs_all). destruct raw; reflexivity.
  - rewrite SP, RS, !map_length. reflexivity.
  - intros i x l X LI ST. rewrite SP, nth_error_map in X. rewrite RS, nth_error_map in LI. destruct (nth_error gs i) as [g|]; [|discriminate].
    cbn [option_map] in *. injection X as <-. injection LI as <-. rewrite CV, VE by exact ST. reflexivity.
  - intros F W. assert (G : forall g, In g gs -> no_words raw g = false).
    { rewrite RS in W. intros g G. destruct (no_words raw g) eqn:NW; [|reflexivity]. exfalso.
      assert (I : In (speaker_line false raw false g) (without_words (map (speaker_line false raw false) gs))) by (apply filter_In; split; [apply in_map, G|exact NW]).
      rewrite W in I. contradiction. }
    assert (WL : with_words (r_speakers r) = r_speakers r).
    { unfold with_words. apply filter_all_true, forallb_forall. intros l I. rewrite RS in I. apply in_map_iff in I. destruct I as (g & <- & GI). cbn [l_star speaker_line]. rewrite (G g GI). reflexivity. }
    assert (OG : raw = true \/ one_gap gs).
    { destruct raw; [left; reflexivity|right]. exists gs, [], []. split; [rewrite !app_nil_r; reflexivity|]. split; [|split; [reflexivity|left; reflexivity]].
      apply forallb_forall. intros g GI. specialize (G g GI). rewrite no_words_worded in G. cbn [negb andb] in G. apply negb_false_iff in G. exact G. }
    destruct (C83_statistics false raw false gs r R F OG) as (_ & _ & _ & _ & _ & K). destruct (K 4 Err) as (st & NS & DS); [rewrite TI; reflexivity|discriminate|discriminate|].
    exists st. split; [exact NS|]. rewrite WL, RS, map_map in DS. rewrite SP in D.
    rewrite (map_ext_in (err_value raw) (fun g => cell 4 (speaker_line false raw false g))) in D by (intros g GI; rewrite CV; apply VE, G, GI).
    eapply describes_unique; [apply Permutation_refl|exact D|exact DS].
Qed.

(** the executive line is the line of the sums when there are no merges and splits *)
Theorem C84_executive raw gs r : system_summary qsort false raw false gs = Ok r -> Forall plain gs ->
  let x := executive_line raw gs in
  x_snt x = l_snt (r_sum r) /\ x_ref x = l_wrd (r_sum r) /\ Forall2 Qeq (x_cells x) (l_cells (r_sum r)) /\ (x_serr x == l_serr (r_sum r))%Q.
Proof.
  intros E F. cbv zeta. destruct (summary_inv _ _ _ _ _ E) as (_ & _ & SU & _). rewrite SU.
  assert (W : list_sum (map word_num gs) = list_sum (map g_corr gs) + list_sum (map g_sub gs) + list_sum (map g_del gs)).
  { unfold word_num. rewrite (list_sum_plus (fun g => g_corr g + g_sub g) (fun g => g_del g)), (list_sum_plus (fun g => g_corr g) (fun g => g_sub g)). reflexivity. }
  split; [reflexivity|]. split; [cbn [x_ref executive_line l_wrd sum_line]; rewrite !sum_nat_ok, W; reflexivity|].
  split; [|unfold executive_line, sum_line; cbn [x_serr l_serr]; reflexivity].
  unfold executive_line. cbv zeta. cbn [x_cells l_cells sum_line row map]. rewrite !sum_nat_ok, !tot_col_plain, tot_ref_plain, plain_refs_sum, W by exact F.
  assert (ER : list_sum (map (fun g => counted g Err) gs) = list_sum (map g_sub gs) + list_sum (map g_del gs) + list_sum (map g_ins gs)).
  { cbn [counted]. clear - F. induction F as [|g gs (A & B) F IH]; [reflexivity|]. unfold list_sum in *. cbn [map fold_right]. rewrite IH. lia. }
  rewrite ER. cbn [counted]. destruct raw; repeat (apply Forall2_cons; [reflexivity|]); apply Forall2_nil.
Qed.
End Report.
Print Assumptions C83_made.
Print Assumptions C83_no_speaker.
Print Assumptions C83_speaker.
Print Assumptions C83_balance.
Print Assumptions C83_sum.
Print Assumptions C83_statistics.
Print Assumptions C83_exchanged.
Print Assumptions C83_weighted_sum.
Print Assumptions C84_table.
Print Assumptions C84_agrees.
Print Assumptions C84_executive.

(** the numbers are printed rounded to the nearest decimal *)
Theorem C83_printed x p : (- inject_Z (2 ^ 31 - 2) <= x * inject_Z (10 ^ Z.of_nat p) <= inject_Z (2 ^ 31 - 2))%Q ->
  exists r, f_round x p = Ok r /\ rounded p x r.
Proof. apply f_round_ok. Qed.
Print Assumptions C83_printed.

(** ** what does not hold *)
Lemma ins_at_perm cmp x l : Permutation (ins_at cmp x l) (x :: l).
Proof.
  induction l as [|y l IH]; [reflexivity|]. cbn [ins_at]. destruct (cmp x y <=? 0)%Z; [reflexivity|].
  rewrite IH. apply perm_swap.
Qed.
Lemma ins_sort_perm cmp l : Permutation (ins_sort cmp l) l.
Proof. induction l as [|x l IH]; [reflexivity|]. cbn [ins_sort fold_right]. rewrite ins_at_perm. apply perm_skip, IH. Qed.
Lemma ins_at_sorted cmp U x l : consistent cmp U -> In x U -> incl l U -> StronglySorted (fun a b => (cmp a b <= 0)%Z) l ->
  StronglySorted (fun a b => (cmp a b <= 0)%Z) (ins_at cmp x l).
Proof.
  intros (C1 & C2) X I S. induction S as [|y l S IH F]; [repeat constructor|]. cbn [ins_at].
  assert (Y : In y U) by (apply I; left; reflexivity). assert (IL : incl l U) by (intros z Z; apply I; right; exact Z).
  destruct (Z.leb_spec (cmp x y) 0) as [L|L].
  - constructor; [constructor; assumption|]. constructor; [exact L|]. rewrite Forall_forall in *. intros z Z.
    apply (C2 x y z X Y (IL z Z) L). apply F, Z.
  - constructor; [apply IH, IL|]. rewrite Forall_forall in *. intros z Z. apply (Permutation_in _ (ins_at_perm cmp x l)) in Z.
    destruct Z as [<-|Z]; [|apply F, Z]. apply (C1 y x Y X) in L. lia.
Qed.
Lemma ins_sort_contract : qsort_contract ins_sort.
Proof.
  intros cmp l C. split; [apply ins_sort_perm|]. assert (G : forall m, incl m l -> StronglySorted (fun a b => (cmp a b <= 0)%Z) (ins_sort cmp m)).
  { induction m as [|x m IH]; intro I; [constructor|]. cbn [ins_sort fold_right]. apply (ins_at_sorted cmp l); auto.
    - apply I. left. reflexivity.
    - intros z Z. apply I. right. eapply Permutation_in; [apply ins_sort_perm|exact Z].
    - apply IH. intros z Z. apply I. right. exact Z. }
  apply G. intros z Z. exact Z.
Qed.

Definition mk (corr sub ins del mrg spl : nat) (wr wc : Q) : grp :=
  {| g_corr := corr; g_sub := sub; g_ins := ins; g_del := del; g_mrg := mrg; g_spl := spl;
     w_ref := wr; w_corr := wc; w_sub := 0; w_ins := 0; w_del := 0; w_mrg := 0; w_spl := 0; g_nsent := 4; g_serr := 1 |}.
(** two speakers without reference words before one with: the mean is over the wrong speaker *)
Theorem C83_statistics_refuted : ~ (forall qs do_sm raw weighted gs r, qsort_contract qs -> system_summary qs do_sm raw weighted gs = Ok r ->
  Forall counts_fit gs -> forall k c, nth_error (r_titles r) k = Some c -> c <> Mrg -> c <> Spl ->
    exists s, nth_error (t_cells (r_stats r)) k = Some s /\ describes s (map (cell k) (with_words (r_speakers r)))).
Proof.
  intro H. set (gs := [mk 0 0 5 0 0 0 0 0; mk 0 0 3 0 0 0 0 0; mk 9 1 0 0 0 0 0 0]).
  destruct (system_summary ins_sort false false false gs) as [r| | |] eqn:E; try (vm_compute in E; discriminate).
  assert (F : Forall counts_fit gs) by (unfold gs; repeat (apply Forall_cons; [split; reflexivity|]); apply Forall_nil).
  destruct (H ins_sort false false false gs r ins_sort_contract E F 4 Err) as (s & NS & D).
  - vm_compute in E. injection E as <-. reflexivity.
  - discriminate.
  - discriminate.
  - vm_compute in E. injection E as <-. vm_compute in NS. injection NS as <-. destruct D as (M & _). vm_compute in M. discriminate.
Qed.
Print Assumptions C83_statistics_refuted.
(** the statistics of merges under the title of merges *)
Theorem C83_merges_refuted : ~ (forall qs raw weighted gs r, qsort_contract qs -> system_summary qs true raw weighted gs = Ok r ->
  Forall counts_fit gs -> without_words (r_speakers r) = [] -> forall k c, nth_error (r_titles r) k = Some c ->
    exists s, nth_error (t_cells (r_stats r)) k = Some s /\ describes s (map (cell k) (r_speakers r))).
Proof.
  intro H. set (gs := [mk 8 0 0 0 2 0 0 0]).
  destruct (system_summary ins_sort true false false gs) as [r| | |] eqn:E; try (vm_compute in E; discriminate).
  assert (F : Forall counts_fit gs) by (unfold gs; repeat (apply Forall_cons; [split; reflexivity|]); apply Forall_nil).
  destruct (H ins_sort false false gs r ins_sort_contract E F) with (k := 4) (c := Mrg) as (s & NS & D).
  - vm_compute in E. injection E as <-. reflexivity.
  - vm_compute in E. injection E as <-. reflexivity.
  - vm_compute in E. injection E as <-. vm_compute in NS. injection NS as <-. destruct D as (M & _). vm_compute in M. discriminate.
Qed.
Print Assumptions C83_merges_refuted.
(** the sum of the weights of all speakers *)
Theorem C83_weighted_sum_refuted : ~ (forall qs do_sm gs r, qsort_contract qs -> system_summary qs do_sm true true gs = Ok r ->
  forall k c, nth_error (r_titles r) k = Some c -> (cell k (r_sum r) == qtotal (map (fun g => weights g c) gs))%Q).
Proof.
  intro H. set (gs := [mk 1 0 0 0 0 0 (1 # 2) (1 # 2); mk 1 0 0 0 0 0 (1 # 2) (1 # 2)]).
  destruct (system_summary ins_sort false true true gs) as [r| | |] eqn:E; try (vm_compute in E; discriminate).
  assert (X := H ins_sort false gs r ins_sort_contract E 0 Corr). vm_compute in E. injection E as <-. specialize (X eq_refl). vm_compute in X. discriminate.
Qed.
Print Assumptions C83_weighted_sum_refuted.
(** words of weight 0: counters in a line that is not marked *)
Theorem C83_weight_zero_refuted : ~ (forall qs do_sm gs r i g l, qsort_contract qs -> system_summary qs do_sm false true gs = Ok r ->
  nth_error gs i = Some g -> nth_error (r_speakers r) i = Some l -> l_star l = false -> (cell 0 l * w_ref g == 100 * w_corr g)%Q /\ (cell 0 l <= 100)%Q).
Proof.
  intro H. set (g := mk 120 0 0 0 0 0 0 0).
  destruct (system_summary ins_sort false false true [g]) as [r| | |] eqn:E; try (vm_compute in E; discriminate).
  assert (X := H ins_sort false [g] r 0 g (speaker_line false false true g) ins_sort_contract E eq_refl).
  vm_compute in E. injection E as <-. destruct (X eq_refl eq_refl) as (_ & Y). vm_compute in Y. congruence.
Qed.
Print Assumptions C83_weight_zero_refuted.
(** a speaker without reference words: 0 percent in the table, left out in the report *)
Theorem C84_means_refuted : ~ (forall qs gs cols c r, qsort_contract qs -> n_system_summary qs false [gs] = Ok cols -> nth_error cols 0 = Some c ->
  system_summary qs false false false gs = Ok r -> exists st, nth_error (t_cells (r_stats r)) 4 = Some st /\ same_stat (c_stat c) st).
Proof.
  intro H. set (gs := [mk 0 0 2 0 0 0 0 0; mk 9 1 0 0 0 0 0 0]).
  destruct (system_summary ins_sort false false false gs) as [r| | |] eqn:E; try (vm_compute in E; discriminate).
  destruct (n_system_summary ins_sort false [gs]) as [cols| | |] eqn:N; try (vm_compute in N; discriminate).
  destruct (nth_error cols 0) as [c|] eqn:C; [|vm_compute in N; injection N as <-; discriminate].
  destruct (H ins_sort gs cols c r ins_sort_contract N C E) as (st & NS & (M & _)).
  vm_compute in E. injection E as <-. vm_compute in N. injection N as <-. vm_compute in C. injection C as <-. vm_compute in NS. injection NS as <-. vm_compute in M. discriminate.
Qed.
Print Assumptions C84_means_refuted.
(** a system with more speakers than the first: speakers are missing, or memory is overwritten *)
Theorem C84_speakers_refuted :
  ~ (forall qs raw systems, qsort_contract qs -> systems <> [] -> exists cols, n_system_summary qs raw systems = Ok cols) /\
  ~ (forall qs raw systems cols s gs c, qsort_contract qs -> n_system_summary qs raw systems = Ok cols ->
       nth_error systems s = Some gs -> nth_error cols s = Some c -> length (c_speakers c) = length gs).
Proof.
  split; intro H.
  - destruct (H ins_sort false [[mk 1 0 0 0 0 0 0 0]; repeat (mk 1 0 0 0 0 0 0 0) 7] ins_sort_contract) as (cols & E); [discriminate|]. vm_compute in E. discriminate.
  - set (systems := [[mk 1 0 0 0 0 0 0 0]; [mk 1 0 0 0 0 0 0 0; mk 1 1 0 0 0 0 0 0]]).
    destruct (n_system_summary ins_sort false systems) as [cols| | |] eqn:N; try (vm_compute in N; discriminate).
    destruct (nth_error cols 1) as [c|] eqn:C; [|vm_compute in N; injection N as <-; discriminate].
    specialize (H ins_sort false systems cols 1 _ c ins_sort_contract N eq_refl C). vm_compute in N. injection N as <-. vm_compute in C. injection C as <-. vm_compute in H. discriminate.
Qed.
Print Assumptions C84_speakers_refuted.
(** merged and split words are reference words in one report and not in the other *)
Theorem C84_executive_refuted : ~ (forall qs raw gs r, qsort_contract qs -> system_summary qs false raw false gs = Ok r ->
  Forall2 Qeq (x_cells (executive_line raw gs)) (l_cells (r_sum r))).
Proof.
  intro H. set (gs := [mk 8 0 0 0 2 0 0 0]).
  destruct (system_summary ins_sort false false false gs) as [r| | |] eqn:E; try (vm_compute in E; discriminate).
  specialize (H ins_sort false gs r ins_sort_contract E). vm_compute in E. injection E as <-. vm_compute in H. inversion H; subst. discriminate.
Qed.
Print Assumptions C84_executive_refuted.

(** ** cases *)
Definition two : list grp := [mk 6 1 2 3 0 0 10 5; mk 0 0 2 0 0 0 0 0; mk 7 2 0 1 0 0 10 7].
Example two_gap : one_gap two /\ Forall counts_fit two /\ Forall plain two.
Proof.
  split; [|split].
  - exists [mk 6 1 2 3 0 0 10 5], [mk 0 0 2 0 0 0 0 0; mk 7 2 0 1 0 0 10 7], []. repeat split. right. eexists _, _. repeat split.
  - unfold two. repeat (apply Forall_cons; [split; reflexivity|]). apply Forall_nil.
  - unfold two. repeat (apply Forall_cons; [split; reflexivity|]). apply Forall_nil.
Qed.
Example two_report : exists r, system_summary ins_sort false false false two = Ok r /\ map l_star (r_speakers r) = [false; true; false] /\
  (cell 4 (r_sum r) == 55)%Q /\ (forall s, nth_error (t_cells (r_stats r)) 4 = Some s -> (s_mean s == 45)%Q /\ (s_var s == 450)%Q).
Proof. eexists. split; [vm_compute; reflexivity|]. repeat split. 1, 2: vm_compute in H; injection H as <-; reflexivity. Qed.
Example medians : exists s t, calc_double ins_sort [7 # 1; 1 # 1; 4 # 1; 2 # 1] = Ok s /\ (s_median s == 3)%Q /\ (s_var s == 7)%Q /\
  calc_int ins_sort [5; -3; 1]%Z = Ok t /\ (s_median t == 1)%Q /\ (s_mean t == 1)%Q.
Proof. eexists _, _. split; [vm_compute; reflexivity|]. split; [reflexivity|]. split; [reflexivity|]. split; [vm_compute; reflexivity|]. split; reflexivity. Qed.
Example table : exists cols, n_system_summary ins_sort false [two; two] = Ok cols /\ length cols = 2 /\
  Forall (fun c => (c_sum c == 55)%Q /\ (s_mean (c_stat c) == 30)%Q) cols.
Proof. eexists. split; [vm_compute; reflexivity|]. split; [reflexivity|]. repeat (apply Forall_cons; [split; reflexivity|]). apply Forall_nil. Qed.
Example printing : f_round (200 # 3) 1 = Ok (inject_Z 667 / inject_Z 10)%Q /\ f_round (- (1 # 4)) 1 = Ok (inject_Z (-3) / inject_Z 10)%Q.
Proof. split; reflexivity. Qed.
