(** What padded texts look like. *)
From Coq Require Import List ZArith NArith Arith.
From Verif Require Import Base Store_Model.
Import ListNotations.

Definition blanks (n : nat) : str := repeat 32%N n.
(** A text between two paddings that differ by at most one. *)
Definition centered (text result : str) (front back : nat) : Prop :=
  result = blanks front ++ text ++ blanks back /\ (front <= back <= S front).
(** No NUL inside. *)
Definition plain_text (s : str) : Prop := ~ In 0%N s.
(** An array that holds the string [s]: the string, a NUL and anything. *)
Definition holds (b : list N) (s : str) : Prop := exists rest, b = s ++ 0%N :: rest.
