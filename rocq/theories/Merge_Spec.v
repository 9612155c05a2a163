(** What joining and deleting do to the words of a network. *)
From Coq Require Import List Arith Bool.
From Verif Require Import Base Net_Model Net_Spec.
Import ListNotations.

Section Merge.
Context {D : Type}.

(** The arcs of a network, and its paths from start to stop. *)
Definition arc_of (N : net D) (x : nat) : Prop := exists u, In x (n_out N u).
Definition full (N : net D) (xs : list nat) : Prop := exists t, n_stop N = Some t /\ npath N (n_start N) xs t.
Definition without (x : nat) (xs : list nat) : list nat := filter (fun y => negb (y =? x)) xs.
(** No other arc leaves the node where [x] begins, or none enters the node where it ends. *)
Definition alone (N : net D) (x : nat) : Prop := n_in N (n_to N x) = [x] \/ n_out N (n_from N x) = [x].

End Merge.
