(** Pieces of time marked words. *)
From Coq Require Import List ZArith Sorted.
From Verif Require Import Sil_Model.
Import ListNotations.
Local Open Scope Z_scope.

(** Words in time order: starts and ends do not decrease. *)
Definition in_order (a b : tword) : Prop := t1 a <= t1 b /\ t1 a + dur a <= t1 b + dur b.
(** The words of the conversation that are still to do. *)
Definition todo (c : ctm) : list tword :=
  firstn (Z.to_nat (last_ c + 1 - cur c)) (skipn (Z.to_nat (cur c)) (ws c)).
(** A file of which nothing beyond the conversation has been read. *)
Definition ctm_ok (c : ctm) : Prop :=
  0 <= cur c <= last_ c + 1 /\ last_ c + 1 = Z.of_nat (length (ws c)) /\ StronglySorted in_order (todo c).

(** All the words of the rows, of all files. *)
Definition in_rows (rows : list (list (list tword))) (w : tword) : Prop :=
  exists row ws, In row rows /\ In ws row /\ In w ws.
(** A silence of all files between two groups of rows. *)
Definition separated (before after : list (list (list tword))) : Prop :=
  exists x y, x < y /\ (forall w, in_rows before w -> t1 w + dur w <= x) /\ (forall w, in_rows after w -> y <= t1 w).
(** What file number [k] has in the rows, one after the other. *)
Definition column (rows : list (list (list tword))) (k : nat) : list tword :=
  concat (map (fun row => nth k row []) rows).
