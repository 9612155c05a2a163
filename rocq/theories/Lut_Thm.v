(** The labelled utterance report of one system. *)
From Coq Require Import String List ZArith NArith Arith Bool QArith Lia.
From Verif Require Import Base Store_Model Sgml_Model Rpg_Model Rpg_Spec Rpg_Thm Sig_Proofs2 Uni_Spec Order_Model Order_Spec Summ_Model Summ_Spec Summ_Thm Lut_Model Lut_Spec Lut_Proofs Lut_Proofs2.
Import ListNotations.
Local Open Scope res_scope.
Local Open Scope nat_scope.

(** C122: the report is a table of equally long lines.  It explains the labels, gives for every speaker and label the number of
    words and the percentage of errors, and for every label the totals of the speakers and mean, deviation and median of those
    with words. *)
Theorem C122_report : forall qsort root spread page old i lines, qsort_contract qsort -> fair spread ->
  length (i_title i) < 1900 -> Forall (fun l => length (fst l) < 2000 /\ length (snd l) < 2000) (i_labels i) ->
  length (i_labels i) = length (i_locs i) -> length (i_cells i) = length (i_locs i) ->
  Lut_Model.report qsort root spread page old i = Ok lines ->
  exists p ts sts w W lss, faithful p
    /\ Forall2 (fun l t => unbroken (fst l) t) (i_labels i) ts
    /\ Forall2 label_stats (i_cells i) sts
    /\ lines = map (on_page page w) (top w :: concat lss ++ [bottom w])
    /\ Forall (fun l => length l = w) (top w :: concat lss ++ [bottom w])
    /\ rows_shown W None (lur_rows p root i ts sts) lss.
Proof.
  intros qs root spread page old i lines Q F T L L1 L2 H. unfold Lut_Model.report in H. next H.
  destruct (rows_ok _ _ _ _ Q T L L1 L2 E) as (ts & sts & R1 & R2 & -> & R4). apply C107_table in H; [|exact F|discriminate|exact R4].
  destruct H as (w & W & lss & H1 & H2 & H3 & _). exists shown, ts, sts, w, W, lss. split; [exact shown_faithful|]. repeat (split; [assumption|]). assumption.
Qed.
Print Assumptions C122_report.

(** In the row of a speaker the two columns of label [j] are about that speaker and that label. *)
Theorem C122_speaker : forall p i k j, j < length (i_cells i) ->
  let vals := s_vals (speaker p i k) in nth (1 + 2 * j) vals [] = nth 0 (about p (nth k (nth j (i_cells i) []) (0, 0))) [] /\ nth (2 + 2 * j) vals [] = nth 1 (about p (nth k (nth j (i_cells i) []) (0, 0))) [].
Proof.
  intros p i k j H vals. unfold vals, speaker, numbers_row. cbn [under mkrow s_vals plus]. clear vals. change (nth (S (S (j + (j + 0)))) ?l []) with (nth (S (j + (j + 0))) (tl l) []).
  revert j H. induction (i_cells i) as [|col cs IH]; intros j H; [cbn in H; lia|]. cbn [flat_map].
  destruct (about p (nth k col (0, 0))) as [|x [|y [|z zs]]] eqn:E; pose proof (about_two p (nth k col (0, 0))) as A; rewrite E in A; try discriminate A.
  destruct j as [|j]; [cbn; rewrite E; split; reflexivity|]. cbn [length] in H. specialize (IH j ltac:(lia)). replace (2 * S j) with (S (S (2 * j))) by lia. cbn [nth app] in *. exact IH.
Qed.
Print Assumptions C122_speaker.

(** ** What does not hold *)
(** The formats have room for 16 labels. *)
Theorem C122_many_labels_refuted : forall qsort root spread page old i, 17 <= length (i_locs i) -> Lut_Model.report qsort root spread page old i = Undef.
Proof.
  intros qs root spread page old i H. unfold Lut_Model.report, report_ops. rewrite <- spell_row, columns_length.
  replace (50 <=? 1 + 3 * length (i_locs i)) with true by (symmetry; apply Nat.leb_le; lia). reflexivity.
Qed.
Print Assumptions C122_many_labels_refuted.

(** Four labels, the first three of one category; no utterance has the second.  A label that no utterance has splits its
    category: the title of the next category stands over it, and that category has no title. *)
Definition unused : input :=
  {| i_title := bytes "sys"; i_labels := [(bytes "Female", bytes "F"); (bytes "Child", bytes "C"); (bytes "Male", bytes "M"); (bytes "Fast", bytes "Q")];
     i_cats := [bytes "Sex"; bytes "Rate"]; i_names := [bytes "s1"; bytes "s2"]; i_locs := [Some 0; None; Some 0; Some 1];
     i_cells := [[(10, 3); (0, 0)]; [(0, 0); (0, 0)]; [(0, 0); (6, 1)]; [(10, 3); (0, 2)]] |}.
Theorem C122_unused_label_refuted : exists ops, report_ops ins_sort (fun x => x) unused = Ok ops
  /\ In (Row (bytes "c|ca=ca=ca=ca") [[]; bytes "Sex"; bytes "Rate"; []; []]) ops
  /\ In (Row (bytes "c|ca=ca=ca=ca") [bytes "SPKR"; bytes "Female"; bytes "Child"; bytes "Male"; bytes "Fast"]) ops.
Proof. eexists. split; [vm_compute; reflexivity|]. split; vm_compute; tauto. Qed.
Print Assumptions C122_unused_label_refuted.

(** ** Cases *)
Definition used : input :=
  {| i_title := bytes "sys"; i_labels := [(bytes "Fe//male", bytes "F"); (bytes "Male", bytes "M"); (bytes "Fast", bytes "Q")];
     i_cats := [bytes "Sex"; bytes "Rate"]; i_names := [bytes "s1"; bytes "s2"]; i_locs := [Some 0; Some 0; Some 1];
     i_cells := [[(9, 3); (0, 0)]; [(0, 0); (6, 1)]; [(9, 3); (0, 2)]] |}.
Example prints : exists lines, Lut_Model.report ins_sort (fun x => x) nearest (Some 80) (fun _ _ => []) used = Ok lines
  /\ qsort_contract ins_sort /\ fair nearest /\ length (i_title used) < 1900
  /\ Forall (fun l => length (fst l) < 2000 /\ length (snd l) < 2000) (i_labels used)
  /\ length (i_labels used) = length (i_locs used) /\ length (i_cells used) = length (i_locs used).
Proof.
  eexists. split; [vm_compute; reflexivity|]. split; [exact ins_sort_contract|]. split; [exact nearest_fair|]. split; [cbn; lia|].
  split; [|split; reflexivity]. repeat (apply Forall_cons; [cbn; lia|]). apply Forall_nil.
Qed.
Example text_of_used : exists ops, report_ops ins_sort (fun x => x) used = Ok ops
  /\ In (Row (bytes "c|rr|rr=rr") (map bytes ["s1"; "[9]"; "33.3"; ""; ""; "[9]"; "33.3"]%string)) ops
  /\ In (Row (bytes "c|rr|rr=rr") (map bytes ["s2"; ""; ""; "[6]"; "16.7"; "0"; "* 2 *"]%string)) ops
  /\ In (Row (bytes "c|rr|rr=rr") (map bytes ["Set Sum/Avg"; "[9]"; "33.3"; "[6]"; "16.7"; "[9]"; "55.6"]%string)) ops
  /\ In (Row (bytes "c|rr|rr=rr") (map bytes ["Mean +"; "[9]"; "33.3"; "[6]"; "16.7"; "[9]"; "33.3"]%string)) ops.
Proof. eexists. split; [vm_compute; reflexivity|]. repeat split; vm_compute; tauto. Qed.
Example seventeen : 17 <= length (i_locs {| i_title := []; i_labels := []; i_cats := []; i_names := []; i_locs := repeat (Some 0) 17; i_cells := [] |}).
Proof. cbn. lia. Qed.
