(** C99: range tables and their GNUPLOT files. *)
From Coq Require Import String.
From Coq Require Import List ZArith QArith NArith Lia Arith Bool Permutation Sorted.
From Verif Require Import Base Store_Model Order_Model Order_Spec Order_Thm Stats_Spec Rank_Model Rank_Spec Rank_Proofs1 Rank_Proofs2 Rank_Proofs3 Rank_Proofs4 Rank_Thm.
Import ListNotations.
Local Open Scope nat_scope.

(** There is one line for each speaker and one for each system, the best first; it shows the mean, the
    standard deviation, the highest and the lowest of the percentages of that speaker or system, and the marks
    of its graph are at these values. *)
Theorem C99_ranges qsort sqrt f names ss scale : qsort_contract qsort -> f <> Fother -> ss <> [] -> names <> [] -> scored_on names ss ->
  exists r P a b, init_rank qsort f ss = Ok r /\ table_of f ss (length names) P /\
    ranked (best_first f) names (map y_title ss) P r /\
    print_rank_ranges qsort sqrt r scale = Ok (a, b) /\
    Forall2 (fun i e => range_shown sqrt f scale (nth i names []) (spk P i) e) (r_trt_srt_ind r) a /\
    Forall2 (fun j e => range_shown sqrt f scale (nth j (map y_title ss) []) (sys P j) e) (r_blk_srt_ind r) b.
Proof.
  intros H F N NN S. destruct (init_ok qsort f names ss H F N S) as (r & P & E & T & SH & R).
  destruct (ranges_ok qsort sqrt f names ss r P H NN N S T SH R scale) as (a & b & EP & FA & FB).
  exists r, P, a, b. auto 10.
Qed.
Print Assumptions C99_ranges.

(** A mean between 0 and 100 is marked in the graph. *)
Theorem C99_mean_marked scale a : scale = 1 \/ scale = 2 -> (0 <= a_mean a <= 100)%Q ->
  exists k, nth_error (graph scale a) k = Some Bar /\ near scale (a_mean a) (q (k * scale)).
Proof.
  intros S M. destruct (In_nth_error _ _ (mean_drawn scale a S M)) as (k & K). exists k. split; [exact K|].
  apply (graph_ok scale a k Bar K).
Qed.
Print Assumptions C99_mean_marked.

(** The GNUPLOT files have the speakers and the systems at the positions 1, 2, ..., the best first, each with
    its percentages, its mean and its median. *)
Theorem C99_gnuplot qsort f names ss : qsort_contract qsort -> f <> Fother -> ss <> [] -> names <> [] -> scored_on names ss ->
  exists r P a b, init_rank qsort f ss = Ok r /\ table_of f ss (length names) P /\
    ranked (best_first f) names (map y_title ss) P r /\
    print_gnu qsort r = Ok (a, b) /\
    plots (r_trt_srt_ind r) names (spk P) a /\ plots (r_blk_srt_ind r) (map y_title ss) (sys P) b.
Proof.
  intros H F N NN S. destruct (init_ok qsort f names ss H F N S) as (r & P & E & T & SH & R).
  destruct (gnu_ok qsort f names ss r P H NN N S T SH R) as (a & b & EA & EB & PA & PB).
  exists r, P, a, b. unfold print_gnu. rewrite EA, EB. cbn [rbind]. auto 10.
Qed.
Print Assumptions C99_gnuplot.

(** The second form of the files has the same entries and names the series: the systems for the
    speakers, the speakers for the systems.  It needs a short name and not too many of both. *)
Theorem C99_gnuplot2 qsort f names ss base : qsort_contract qsort -> f <> Fother -> ss <> [] -> names <> [] -> scored_on names ss ->
  length base <= 38 -> length ss <= 32 -> length names <= 32 ->
  exists r a b, init_rank qsort f ss = Ok r /\ print_gnu qsort r = Ok (a, b) /\
    print_gnu2 qsort r base = Ok ((a, map y_title ss), (b, names)).
Proof.
  intros H F N NN S LB LS LN. destruct (init_ok qsort f names ss H F N S) as (r & P & E & T & SH & R).
  destruct (gnu2_ok qsort f names ss r P H NN N S T SH R base LB LS LN) as (a & b & EA & EB). exists r, a, b. auto.
Qed.
Print Assumptions C99_gnuplot2.

(** Beyond these limits the second form overruns its buffers. *)
Theorem C99_gnuplot2_refuted qsort f names ss base : qsort_contract qsort -> f <> Fother -> ss <> [] -> names <> [] -> scored_on names ss ->
  38 < length base \/ 32 < length ss \/ 32 < length names ->
  exists r, init_rank qsort f ss = Ok r /\ print_gnu2 qsort r base = Undef.
Proof.
  intros H F N NN S C. destruct (init_ok qsort f names ss H F N S) as (r & P & E & T & SH & R).
  exists r. split; [exact E|]. apply (gnu2_undef qsort f names ss r P H NN N S T SH R base C).
Qed.
Print Assumptions C99_gnuplot2_refuted.

(** The lowest value is wrong when all are over 100: it is 100, though no percentage is. *)
Theorem C99_low_refuted qsort sqrt v : qsort_contract qsort -> Forall (fun x => (100 < x)%Q) v ->
  exists a, range_of qsort sqrt v = Ok a /\ a_low a = 100%Q /\ ~ least v (a_low a).
Proof.
  intros H F. unfold range_of. destruct (high_low v 0 100) as [h w] eqn:E. destruct (Summ_Proofs1.calc_double_ok qsort v H) as (s & -> & _).
  cbn [rbind]. eexists. split; [reflexivity|]. cbn [a_low]. apply high_low_ok in E. destruct E as (_ & B & _ & _ & _ & G).
  rewrite Forall_forall in F. assert (W : w = 100%Q).
  { destruct G as [G|G]; [exact G|]. specialize (F w G). exfalso. apply (Qlt_not_le _ _ F B). }
  split; [exact W|]. subst w. intros (X & _). apply Exists_exists in X. destruct X as (x & IX & X). specialize (F x IX).
  rewrite X in F. apply (Qlt_irrefl _ F).
Qed.
Print Assumptions C99_low_refuted.
(** The highest value is wrong when all are negative, as word accuracies can be: it is 0. *)
Theorem C99_high_refuted qsort sqrt v : qsort_contract qsort -> Forall (fun x => (x < 0)%Q) v ->
  exists a, range_of qsort sqrt v = Ok a /\ a_high a = 0%Q /\ ~ greatest v (a_high a).
Proof.
  intros H F. unfold range_of. destruct (high_low v 0 100) as [h w] eqn:E. destruct (Summ_Proofs1.calc_double_ok qsort v H) as (s & -> & _).
  cbn [rbind]. eexists. split; [reflexivity|]. cbn [a_high]. apply high_low_ok in E. destruct E as (B & _ & _ & _ & G & _).
  rewrite Forall_forall in F. assert (W : h = 0%Q).
  { destruct G as [G|G]; [exact G|]. specialize (F h G). exfalso. apply (Qlt_not_le _ _ F B). }
  split; [exact W|]. subst h. intros (X & _). apply Exists_exists in X. destruct X as (x & IX & X). specialize (F x IX).
  rewrite X in F. apply (Qlt_irrefl _ F).
Qed.
Print Assumptions C99_high_refuted.

Example C99_example : scored_on [bytes "ann"; bytes "bob"] [sys_a; sys_c; sys_d] /\
  (match init_rank isort FE [sys_a; sys_c; sys_d] with
   | Ok r => match print_rank_ranges isort (fun x => x) r 2 with
             | Ok (a, b) => (map e_name a, map (fun e => (Qred (a_high (e_range e)), Qred (a_low (e_range e)), Qred (a_mean (e_range e)))) a, map e_name b)
             | _ => ([], [], []) end
   | _ => ([], [], []) end) =
  ([bytes "ann"; bytes "bob"], [(20, 20, 20); (60, 10, 40)]%Q, [bytes "three"; bytes "one"; bytes "two"]).
Proof. split; [repeat constructor|vm_compute; reflexivity]. Qed.
Example C99_graph_example : let a := {| a_high := 60; a_low := 10; a_dev := 8; a_mean := 40 |} in
  (0 <= a_mean a <= 100)%Q /\ firstn 34 (graph 2 a) =
  [Blank; Blank; Blank; Blank; Blank; Dash; Dash; Dash; Dash; Dash; Dash; Dash; Dash; Dash; Dash; Dash; Plus; Dash; Dash; Dash; Bar;
   Dash; Dash; Dash; Plus; Dash; Dash; Dash; Dash; Dash; Dash; Blank; Blank; Blank].
Proof. split; [split; discriminate|vm_compute; reflexivity]. Qed.
Example C99_gnuplot_example : scored_on [bytes "ann"; bytes "bob"] [sys_a; sys_c; sys_d] /\
  (match init_rank isort FE [sys_a; sys_c; sys_d] with
   | Ok r => match print_gnu isort r with
             | Ok (a, b) => (map n_label a, map (fun e => (n_pos e, Qred (n_median e))) a, map n_label b)
             | _ => ([], [], []) end
   | _ => ([], [], []) end) =
  ([bytes "ann"; bytes "bob"], [(1, 20%Q); (2, 50%Q)], [bytes "three"; bytes "one"; bytes "two"]).
Proof. split; [repeat constructor|vm_compute; reflexivity]. Qed.
Example C99_low_example : Forall (fun x => (100 < x)%Q) [150; 120]%Q.
Proof. repeat constructor. Qed.
Example C99_long_example : 38 < length (bytes "/home/user/experiments/results/2026/devset.grange2").
Proof. vm_compute. lia. Qed.
