(** The labelled utterance report of several systems. *)
From Coq Require Import String List ZArith NArith Arith Bool QArith Lia.
From Verif Require Import Base Store_Model Sgml_Model Rpg_Model Rpg_Spec Rpg_Thm Sig_Proofs2 Uni_Spec Order_Model Order_Spec Summ_Model Summ_Spec Summ_Thm Lut_Model Lut_Spec Lut_Proofs Lun_Model Lun_Spec Lun_Proofs.
Import ListNotations.
Local Open Scope res_scope.
Local Open Scope nat_scope.

(** C123: the report is a table of equally long lines.  It explains the labels and gives for every system and label the words
    and percentage of errors of all speakers, then mean, deviation and median over the speakers with words or errors. *)
Theorem C123_report : forall qsort root spread page old i lines, qsort_contract qsort -> fair spread ->
  length (n_test i) < 1900 -> Forall (fun l => length (fst l) < 2000 /\ length (snd l) < 2000) (n_labels i) ->
  n_systems i <> [] -> n_locs i <> [] -> length (n_labels i) = length (n_locs i) -> Forall (fun y => length (snd y) = length (n_locs i)) (n_systems i) ->
  Lun_Model.report qsort root spread page old i = Ok lines ->
  exists p ts stss w W lss, faithful p
    /\ Forall2 (fun l t => unbroken (fst l) t) (n_labels i) ts
    /\ Forall2 (fun y sts => Forall2 stats_of (snd y) sts) (n_systems i) stss
    /\ lines = map (on_page page w) (top w :: concat lss ++ [bottom w])
    /\ Forall (fun l => length l = w) (top w :: concat lss ++ [bottom w])
    /\ rows_shown W None (lurN_rows p root i ts stss) lss.
Proof.
  intros qs root spread page old i lines Q F T L NS NL L1 L2 H. unfold Lun_Model.report in H. next H.
  destruct (rows_ok _ _ _ _ Q T L NS NL L1 L2 E) as (ts & sts & R1 & R2 & -> & R4). apply C107_table in H; [|exact F|discriminate|exact R4].
  destruct H as (w & W & lss & H1 & H2 & H3 & _). exists shown, ts, sts, w, W, lss. split; [exact shown_faithful|]. repeat (split; [assumption|]). assumption.
Qed.
Print Assumptions C123_report.

(** ** What does not hold *)
(** The formats have room for 16 labels. *)
Theorem C123_many_labels_refuted : forall qsort root spread page old i, 17 <= length (n_locs i) -> Lun_Model.report qsort root spread page old i = Undef.
Proof.
  intros qs root spread page old i H. unfold Lun_Model.report, Lun_Model.report_ops. rewrite <- spell_row, columns_length.
  replace (50 <=? 1 + 3 * length (n_locs i)) with true by (symmetry; apply Nat.leb_le; lia). reflexivity.
Qed.
Print Assumptions C123_many_labels_refuted.
Definition one_label (systems : list (str * list (list (nat * nat)))) : tests :=
  {| n_test := bytes "demo"; n_labels := [(bytes "Male", bytes "M")]; n_cats := []; n_locs := [Some 0]; n_systems := systems |}.
(** A system with more speakers of a label than the first has speakers overflows the arrays; in the other order it does not. *)
Theorem C123_more_speakers_refuted : exists a b, Lun_Model.report ins_sort (fun x => x) nearest None (fun _ _ => []) (one_label [a; b]) = Undef
  /\ exists lines, Lun_Model.report ins_sort (fun x => x) nearest None (fun _ _ => []) (one_label [b; a]) = Ok lines.
Proof.
  exists (bytes "a", [[(5, 1)]]), (bytes "b", [[(5, 1); (4, 2)]]). split; [vm_compute; reflexivity|]. eexists. vm_compute. reflexivity.
Qed.
Print Assumptions C123_more_speakers_refuted.
(** A speaker with errors and no words halves the mean percentage: more errors give a better mean. *)
Theorem C123_only_errors_refuted : exists i j ops ops', n_systems i = [(bytes "a", [[(5, 2); (0, 0)]])] /\ n_systems j = [(bytes "a", [[(5, 2); (0, 7)]])]
  /\ Lun_Model.report_ops ins_sort (fun x => x) i = Ok ops /\ Lun_Model.report_ops ins_sort (fun x => x) j = Ok ops'
  /\ In (Row (bytes "c|rr") [bytes "a"; bytes "[5]"; bytes "40.0"]) ops /\ In (Row (bytes "c|rr") [bytes "a"; bytes "[2]"; bytes "20.0"]) ops'
  /\ ~ In (Row (bytes "c|rr") [bytes "a"; bytes "[5]"; bytes "40.0"]) ops'.
Proof.
  exists (one_label [(bytes "a", [[(5, 2); (0, 0)]])]), (one_label [(bytes "a", [[(5, 2); (0, 7)]])]). do 2 eexists. split; [reflexivity|]. split; [reflexivity|].
  split; [vm_compute; reflexivity|]. split; [vm_compute; reflexivity|]. split; [vm_compute; tauto|]. split; [vm_compute; tauto|].
  vm_compute. intros K. repeat (destruct K as [K|K]; [discriminate K|]). exact K.
Qed.
Print Assumptions C123_only_errors_refuted.

(** ** Cases *)
Definition compared : tests :=
  {| n_test := bytes "demo"; n_labels := [(bytes "Fe//male", bytes "F"); (bytes "Male", bytes "M"); (bytes "Fast", bytes "Q")];
     n_cats := [bytes "Sex"; bytes "Rate"]; n_locs := [Some 0; Some 0; Some 1];
     n_systems := [(bytes "one", [[(9, 3); (0, 0)]; [(0, 0); (6, 1)]; [(9, 3); (0, 2)]]); (bytes "two", [[(9, 0); (0, 0)]; [(0, 0); (6, 6)]; [(9, 1); (0, 0)]])] |}.
Example prints : exists lines, Lun_Model.report ins_sort (fun x => x) nearest (Some 80) (fun _ _ => []) compared = Ok lines
  /\ qsort_contract ins_sort /\ fair nearest /\ length (n_test compared) < 1900
  /\ Forall (fun l => length (fst l) < 2000 /\ length (snd l) < 2000) (n_labels compared)
  /\ n_systems compared <> [] /\ n_locs compared <> []
  /\ length (n_labels compared) = length (n_locs compared) /\ Forall (fun y => length (snd y) = length (n_locs compared)) (n_systems compared).
Proof.
  eexists. split; [vm_compute; reflexivity|]. split; [exact ins_sort_contract|]. split; [exact nearest_fair|]. split; [cbn; lia|].
  split; [repeat (apply Forall_cons; [cbn; lia|]); apply Forall_nil|]. split; [discriminate|]. split; [discriminate|]. split; [reflexivity|]. repeat (apply Forall_cons; [reflexivity|]). apply Forall_nil.
Qed.
Example text_of_compared : exists ops, Lun_Model.report_ops ins_sort (fun x => x) compared = Ok ops
  /\ In (Row (bytes "c|rr|rr=rr") (map bytes ["one"; "[9]"; "33.3"; "[6]"; "16.7"; "[9]"; "55.6"]%string)) ops
  /\ In (Row (bytes "c|rr|rr=rr") (map bytes ["two"; "[9]"; "0.0"; "[6]"; "100.0"; "[9]"; "11.1"]%string)) ops
  /\ In (Row (bytes "c|rr|rr=rr") (map bytes ["one"; "[9]"; "33.3"; "[6]"; "16.7"; "[4]"; "16.7"]%string)) ops.
Proof. eexists. split; [vm_compute; reflexivity|]. repeat split; vm_compute; tauto. Qed.
Example seventeen : 17 <= length (n_locs {| n_test := []; n_labels := []; n_cats := []; n_locs := repeat (Some 0) 17; n_systems := [] |}).
Proof. cbn. lia. Qed.
