(** C35 the matched pairs sentence segment word error test. *)
From Coq Require Import List Arith ZArith NArith QArith Bool Lia Lqa.
From Verif Require Import Base NetDp_Model Word_Model Order_Model Path_Model Path_Spec Binom_Model SysTest_Model Scores_Model Scores_Spec Scores_Proofs Scores_Proofs2 Scores_Thm.
From Verif Require Import Mapsswe_Model Mapsswe_Spec Mapsswe_Proofs Mapsswe_Proofs2 Mapsswe_Proofs3.
Import ListNotations.
Local Open Scope res_scope.
Local Open Scope nat_scope.

(** The segments of two alignment paths: the program reads nothing outside the paths, whatever the
    comparison of words answers; the new segments lie inside the paths, hold the errors and half the
    reference words of both sides, begin at the start of the path or with [mg] correct words and end with
    [mg] correct words or at the end; each error of either path lies in exactly one segment. *)
Theorem C35_every_error_once : forall differ l1 l2 mg segs0,
  Forall well_formed_step l1 -> Forall well_formed_step l2 -> 1 <= mg ->
  exists new, test_comp_sents differ l1 l2 mg segs0 = Ok (segs0 ++ new)
    /\ Forall (proper_segment l1 l2 mg) new
    /\ total sg_err1 new = errors l1 /\ total sg_err2 new = errors l2
    /\ (forall i, error_at l1 i -> cover1 i new = 1) /\ (forall i, error_at l2 i -> cover2 i new = 1).
Proof. intros differ l1 l2 mg segs0 W1 W2 M. exact (test_ok differ l1 l2 mg W1 W2 M segs0). Qed.
Print Assumptions C35_every_error_once.

(** Exchanging the paths exchanges the sides of the segments, if both paths align the same number of
    reference words. *)
Theorem C35_swap : forall differ l1 l2 mg segs0,
  Forall well_formed_step l1 -> Forall well_formed_step l2 -> 1 <= mg -> refs l1 = refs l2 ->
  exists segs, test_comp_sents differ l1 l2 mg segs0 = Ok segs
    /\ test_comp_sents (fun i j => differ j i) l2 l1 mg (map swap_seg segs0) = Ok (map swap_seg segs).
Proof. intros differ l1 l2 mg segs0 W1 W2 M H. exact (test_swap differ l1 l2 mg W1 W2 M segs0 H). Qed.
Print Assumptions C35_swap.

(** Over two systems with any histories of sentences: the segments hold the errors of the compared
    sentences, no more and no less. *)
Theorem C35_all_sentences : forall differ mg n1 n2 cs1 cs2, 1 <= mg -> well_formed_calls cs1 -> well_formed_calls cs2 ->
  exists sys1 sys2 segs, score_calls (scores_init n1) cs1 = Ok sys1 /\ score_calls (scores_init n2) cs2 = Ok sys2
    /\ mp_spk differ mg sys1 sys2 (p_num sys1) 0 [] = Ok segs
    /\ total sg_err1 segs = compared1 cs1 cs2 /\ total sg_err2 segs = compared2 cs1 cs2
    /\ Forall (fun s => 0 < sg_err1 s + sg_err2 s) segs.
Proof.
  intros differ mg n1 n2 cs1 cs2 M W1 W2.
  destruct (calls_ok cs1 (scores_init n1) [] (state_init n1) W1) as (sys1 & E1 & S1).
  destruct (calls_ok cs2 (scores_init n2) [] (state_init n2) W2) as (sys2 & E2 & S2).
  destruct (spk_ok differ mg M sys1 sys2 cs1 cs2 S1 S2 W1 W2) as (segs & E & P & T1 & T2).
  exists sys1, sys2, segs. rewrite group_sum1 in T1. rewrite group_sum2 in T2. auto 10.
Qed.
Print Assumptions C35_all_sentences.

(** The verdict, for at least one segment: if the differences vary, a difference is reported exactly when
    the mean exceeds 1.96 standard errors, against the system with more errors (1: the first has more),
    and the confidence is the two-sided tail of the normal table (C34_table_entry). *)
Theorem C35_statistic : forall segs, segs <> [] ->
  exists r c, mapsswe segs = Ok (r, c)
    /\ let d := map difference segs in
       let n := inject_Z (Z.of_nat (length d)) in
       ((exists x y, In x d /\ In y d /\ x <> y) ->
          (r <> 0%Z <-> (196 # 100) * (196 # 100) * variance d < n * (mean_of d * mean_of d))%Q
          /\ (c == 2 * (1 - normprob (n * (mean_of d * mean_of d)) (variance d)))%Q)
       /\ (r = 0%Z \/ r = 1%Z /\ (0 < mean_of d)%Q \/ r = (-1)%Z /\ (mean_of d < 0)%Q).
Proof.
  intros segs N. destruct (mapsswe_ok segs N) as (r & c & E & A & B & C). exists r, c. split; [exact E|]. cbv zeta in *. split; [exact B|exact C].
Qed.
Print Assumptions C35_statistic.
Theorem C35_statistic_swap : forall segs, segs <> [] ->
  exists r c c', mapsswe segs = Ok (r, c) /\ mapsswe (map swap_seg segs) = Ok ((- r)%Z, c') /\ (c == c')%Q.
Proof. exact mapsswe_swap. Qed.
Print Assumptions C35_statistic_swap.

(** One system worse by the same number of errors in every segment is never reported, however many
    segments and however large the number. *)
Theorem C35_constant_difference_refuted : forall k n, 1 <= n ->
  exists segs c, length segs = n /\ Forall (fun s => sg_err1 s = sg_err2 s + k) segs /\ mapsswe segs = Ok (0%Z, c).
Proof.
  intros k n H. set (s := {| sg_beg1 := 0; sg_end1 := k; sg_beg2 := 0; sg_end2 := k; sg_ref := k; sg_err1 := k; sg_err2 := 0 |}).
  assert (N : repeat s n <> []) by (destruct n; [lia|discriminate]).
  destruct (mapsswe_ok (repeat s n) N) as (r & c & E & A & _). exists (repeat s n), c. split; [apply repeat_length|]. split.
  - apply Forall_forall. intros x I. apply repeat_spec in I. subst x. reflexivity.
  - rewrite E. rewrite A; [reflexivity|]. exists (difference s). intros x I. apply in_map_iff in I. destruct I as (y & <- & I). apply repeat_spec in I. subst y. reflexivity.
Qed.
Print Assumptions C35_constant_difference_refuted.
(** If no compared sentence has an error the statistic reads outside an array. *)
Theorem C35_no_errors_refuted : forall differ mg n1 n2 cs1 cs2, 1 <= mg -> well_formed_calls cs1 -> well_formed_calls cs2 ->
  compared1 cs1 cs2 = 0 -> compared2 cs1 cs2 = 0 ->
  exists sys1 sys2, score_calls (scores_init n1) cs1 = Ok sys1 /\ score_calls (scores_init n2) cs2 = Ok sys2
    /\ mtch_pairs_on_sys differ mg sys1 sys2 = Undef.
Proof.
  intros differ mg n1 n2 cs1 cs2 M W1 W2 Z1 Z2.
  destruct (C35_all_sentences differ mg n1 n2 cs1 cs2 M W1 W2) as (sys1 & sys2 & segs & E1 & E2 & E & T1 & T2 & P).
  exists sys1, sys2. split; [exact E1|]. split; [exact E2|]. unfold mtch_pairs_on_sys. rewrite E. cbn [rbind].
  destruct segs as [|s segs]; [reflexivity|]. inversion P; subst. cbn [total] in *. lia.
Qed.
Print Assumptions C35_no_errors_refuted.

Definition ws (w : Z) : option word := Some (a_word w).
Definition pc : step word := (ws 1, ws 1, PCorr).
Definition psub : step word := (ws 1, ws 1, PSub).
Definition pins : step word := (None, ws 1, PIns).
Definition pdel : step word := (ws 1, None, PDel).
Definition path_a : list (step word) := [pc; psub; pc; pc; pins; pc; pc; pc; pdel; pins].
Definition path_b : list (step word) := [pc; pc; pc; pc; pc; pc; pc; psub].
Example C35_case : Forall well_formed_step path_a /\ Forall well_formed_step path_b /\ refs path_a = refs path_b
  /\ exists s1 s2 s3, test_comp_sents (fun _ _ => false) path_a path_b 2 [] = Ok [s1; s2; s3]
     /\ (sg_beg1 s1, sg_end1 s1, sg_err1 s1, sg_err2 s1) = (0, 4, 1, 0)
     /\ (sg_beg1 s2, sg_end1 s2, sg_err1 s2, sg_err2 s2) = (2, 7, 1, 0)
     /\ (sg_beg1 s3, sg_end1 s3, sg_err1 s3, sg_err2 s3) = (6, 10, 2, 1).
Proof.
  split; [unfold path_a; repeat (apply Forall_cons; [vm_compute; intuition congruence|]); apply Forall_nil|].
  split; [unfold path_b; repeat (apply Forall_cons; [vm_compute; intuition congruence|]); apply Forall_nil|]. split; [reflexivity|].
  eexists _, _, _. split; [vm_compute; reflexivity|]. repeat split.
Qed.
Definition seg_of (a b : nat) : seg := {| sg_beg1 := 0; sg_end1 := 0; sg_beg2 := 0; sg_end2 := 0; sg_ref := 1; sg_err1 := a; sg_err2 := b |}.
Example C35_verdict_case : (exists c, mapsswe (repeat (seg_of 2 1) 4 ++ repeat (seg_of 3 1) 5) = Ok (1%Z, c))
  /\ (exists c, mapsswe (repeat (seg_of 2 1) 4 ++ repeat (seg_of 1 3) 3) = Ok (0%Z, c))
  /\ (exists c, mapsswe (repeat (seg_of 0 1) 4 ++ repeat (seg_of 1 3) 3) = Ok ((-1)%Z, c)).
Proof. repeat split; eexists; vm_compute; reflexivity. Qed.
Example C35_sentences_case : compared1 sys_a sys_b = 18 /\ compared2 sys_a sys_b = 2
  /\ compared1 (filter (fun c => negb (kept_of c)) sys_a) sys_b = 0.
Proof. vm_compute. auto. Qed.
