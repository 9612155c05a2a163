From Coq Require Import List ZArith Arith Lia.
From Verif Require Import Matrix_Model Matrix_Spec Matrix_Proofs.
Import ListNotations.

(** C05: two in-range coordinates that land on the same cell are the same coordinate. *)
Theorem C05_addressing_injective : forall deep c1 c2 i1 i2,
  in_range deep c1 -> in_range deep c2 ->
  coordinates_to_size (array_new deep) c1 = Some i1 ->
  coordinates_to_size (array_new deep) c2 = Some i2 ->
  i1 = i2 -> c1 = c2.
Proof. exact array_addressing_proof. Qed.
Print Assumptions C05_addressing_injective.

(** C05: an in-range coordinate is accepted and lies inside the allocated array. *)
Theorem C05_addressing_in_bounds : forall deep c,
  in_range deep c ->
  exists i, coordinates_to_size (array_new deep) c = Some i /\
            i < length (am_cost (array_new deep)).
Proof. exact array_in_bounds_proof. Qed.
Print Assumptions C05_addressing_in_bounds.

Example C05_case :
  in_range [4; 3; 5] [2; 1; 3] /\ in_range [4; 3; 5] [0; 0; 3] /\
  coordinates_to_size (array_new [4; 3; 5]) [2; 1; 3] = Some 23 /\
  coordinates_to_size (array_new [4; 3; 5]) [0; 0; 3] = Some 18.
Proof. unfold in_range. repeat split; repeat constructor; lia. Qed.

(** C06: after any history of in-range writes, a read returns the last value written there,
    or "uncalculated". *)
Theorem C06_store_faithful : forall deep ws c,
  Forall (fun w => in_range deep (fst w)) ws -> in_range deep c ->
  exists m, array_run (array_new deep) ws = Some m /\
    array_get m c = Some (match last_write ws c with Some v => v | None => C_UNCALCULATED end).
Proof. exact array_store_proof. Qed.
Print Assumptions C06_store_faithful.

(** C06: the number of calculated costs is the number of distinct coordinates written
    (costs are never the marker -1). *)
Theorem C06_count : forall deep ws,
  Forall (fun w => in_range deep (fst w)) ws ->
  Forall (fun w => snd w <> C_UNCALCULATED) ws ->
  exists m, array_run (array_new deep) ws = Some m /\
    array_number_calculated m = distinct_written ws.
Proof. exact array_count_proof. Qed.
Print Assumptions C06_count.

Example C06_case :
  let ws := [([1; 0], 300%Z); ([0; 1], 400%Z); ([1; 0], 100%Z)] in
  Forall (fun w => in_range [3; 3] (fst w)) ws /\ in_range [3; 3] [1; 0] /\
  Forall (fun w => snd w <> C_UNCALCULATED) ws /\
  last_write ws [1; 0] = Some 100%Z /\ distinct_written ws = 2.
Proof.
  unfold in_range, C_UNCALCULATED. simpl.
  repeat split; repeat constructor; simpl; try lia; discriminate.
Qed.
