(** What a copy of a network is. *)
From Coq Require Import List Arith Bool.
From Verif Require Import Base Net_Model Net_Spec.
Import ListNotations.

Section Copy.
Context {D : Type}.

(** [C] has the same shape as [N]: [f] renames its nodes and [g] its arcs, and the data of an arc
    of [C] is the copy of the data of the arc of [N]. *)
Record same_shape (copy : D -> D) (N C : net D) (f g : nat -> nat) : Prop := {
  ss_start : n_start C = f (n_start N);
  ss_stop : n_stop C = option_map f (n_stop N);
  ss_arcs : forall x u, In x (n_out N u) ->
    In (g x) (n_out C (f u)) /\ n_to C (g x) = f (n_to N x) /\ n_data C (g x) = option_map copy (n_data N x);
  ss_all : forall y p, In y (n_out C p) -> exists x u, In x (n_out N u) /\ y = g x /\ p = f u;
  ss_nodes : forall u v, reachable N u -> reachable N v -> f u = f v -> u = v;
  ss_names : forall x y u v, In x (n_out N u) -> In y (n_out N v) -> g x = g y -> x = y
}.
End Copy.
