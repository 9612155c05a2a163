From Coq Require Import List ZArith Arith Bool String Lia.
From Verif Require Import Base Matrix_Model Graph_Model Graph_Spec Graph_Proofs5 Graph_Example.
Import ListNotations.
Open Scope res_scope.

(** C01: without pruning, filling the graph terminates and the best cost reported is attained
    by an alignment of the group and is below the cost of every alignment of the group. *)
Theorem C01_best_cost_is_minimum : forall g, wf_graph g -> no_pruning g ->
  exists N, forall fuel, N <= fuel ->
  exists s best s1,
    fill_graph array_store g fuel (new_array_store g) = Ok s /\
    get_best_cost array_store g s = Ok (best, s1) /\
    (exists al, is_alignment g al /\ alignment_cost g al = best) /\
    (forall al, is_alignment g al -> (best <= alignment_cost g al)%Z).
Proof.
  intros g Hwf Hnp. destruct (array_search g Hwf) as [N HN]. exists N. intros fuel HF.
  destruct (HN fuel HF) as (s & best & s1 & al & s2 & H1 & H2 & _ & H3 & H4 & H5).
  exists s, best, s1. repeat split; eauto.
Qed.
Print Assumptions C01_best_cost_is_minimum.

(** C02: the alignment retrieved is an alignment of the group whose cost is the one reported,
    with or without pruning. *)
Theorem C02_retrieved_attains_cost : forall g, wf_graph g ->
  exists N, forall fuel, N <= fuel ->
  exists s best s1 al s2,
    fill_graph array_store g fuel (new_array_store g) = Ok s /\
    get_best_cost array_store g s = Ok (best, s1) /\
    retrieve_alignment array_store g fuel s1 = Ok (al, s2) /\
    is_alignment g al /\ alignment_cost g al = best.
Proof.
  intros g Hwf. destruct (array_search g Hwf) as [N HN]. exists N. intros fuel HF.
  destruct (HN fuel HF) as (s & best & s1 & al & s2 & H1 & H2 & H3 & H4 & H5 & _).
  exists s, best, s1, al, s2. auto.
Qed.
Print Assumptions C02_retrieved_attains_cost.

(** C03: in the retrieved alignment every column holds one token, or one hypothesis and one
    reference token; the words of each speech are a complete path of it, no word twice; a
    speech without alternations appears in full. *)
Theorem C03_no_word_lost : forall g, wf_graph g ->
  exists N, forall fuel, N <= fuel ->
  exists s best s1 al s2,
    fill_graph array_store g fuel (new_array_store g) = Ok s /\
    get_best_cost array_store g s = Ok (best, s1) /\
    retrieve_alignment array_store g fuel s1 = Ok (al, s2) /\
    Forall (legal_column (List.length (g_dims g)) (g_ref g)) al /\
    forall i d, nth_error (g_dims g) i = Some d ->
      complete_path (g_env g) d (words_of i al) /\
      NoDup (words_of i al) /\
      (linear_speech (g_env g) d -> words_of i al = d_toks d).
Proof.
  intros g Hwf. destruct (array_search g Hwf) as [N HN]. exists N. intros fuel HF.
  destruct (HN fuel HF) as (s & best & s1 & al & s2 & H1 & H2 & H3 & [H4 H4'] & H5 & _).
  exists s, best, s1, al, s2. repeat (split; [assumption|]).
  intros i d Hd. pose proof (nth_error_In _ _ Hd) as Hin. specialize (H4' i d Hd).
  split; [exact H4'|]. split; [eapply complete_nodup; eassumption|].
  intros Hl. eapply linear_all_words; eassumption.
Qed.
Print Assumptions C03_no_word_lost.

(** C04: the search never stops at a coordinate other than the origin, whatever the pruning
    options and times. *)
Theorem C04_no_dead_end : forall g c, wf_graph g -> reached g c ->
  exists l, previous_coordinates g c = Ok l /\ (l = [] <-> Forall (fun k => k = 0) c).
Proof. exact (fun g c => reached_no_dead_end g c). Qed.
Print Assumptions C04_no_dead_end.

(** C04: the search terminates and never exits or dereferences NULL. *)
Theorem C04_fill_terminates : forall g, wf_graph g ->
  exists N, forall fuel, N <= fuel ->
  exists s, fill_graph array_store g fuel (new_array_store g) = Ok s.
Proof.
  intros g Hwf. destruct (array_search g Hwf) as [N HN]. exists N. intros fuel HF.
  destruct (HN fuel HF) as (s & _ & _ & _ & _ & H & _). exists s. exact H.
Qed.
Print Assumptions C04_fill_terminates.

(** The hypotheses hold of a group of two hypotheses and a reference with an alternation. *)
Example C01_case :
  wf_graph (ex_graph false) /\ no_pruning (ex_graph false) /\
  (let* s := fill_graph array_store (ex_graph false) 20 (new_array_store (ex_graph false)) in
   let* (best, s1) := get_best_cost array_store (ex_graph false) s in
   let* (al, s2) := retrieve_alignment array_store (ex_graph false) 20 s1 in
   Ok (best, al))
  = Ok (446%Z, [[Some 0; None; Some 10]; [None; Some 5; Some 12]; [Some 1; None; Some 13]]).
Proof. split; [apply ex_wf|]. split; [split; reflexivity|]. vm_compute. reflexivity. Qed.

Example C04_case :
  wf_graph (ex_graph true) /\ reached (ex_graph true) [2; 1; 4] /\
  exists l, previous_coordinates (ex_graph true) [2; 1; 4] = Ok l /\ List.length l = 4.
Proof.
  split; [apply ex_wf|]. split.
  - apply reached_start. vm_compute. left. reflexivity.
  - eexists. split; [vm_compute; reflexivity|reflexivity].
Qed.
