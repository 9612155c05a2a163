(** What networks mean: paths, the words they spell, well-formed networks. *)
From Coq Require Import List ZArith Arith Bool.
From Verif Require Import Base Net_Model.
Import ListNotations.

Section Net.
Context {D : Type}.

(** [xs] is a path of arcs from node [u] to node [v]. *)
Inductive npath (N : net D) : nat -> list nat -> nat -> Prop :=
| np_nil : forall u, npath N u [] u
| np_cons : forall u x xs v, In x (n_out N u) -> npath N (n_to N x) xs v -> npath N u (x :: xs) v.

(** The word sequences of a network; the network without arcs has the empty one. *)
Definition nsays (N : net D) (ws : list (option D)) : Prop :=
  match n_stop N with
  | None => ws = []
  | Some t => exists xs, npath N (n_start N) xs t /\ map (n_data N) xs = ws
  end.

(** The arc lists agree with the ends of the arcs, there is no cycle, no arc enters the start
    or leaves the stop, and every arc lies on a path from start to stop. *)
Record wf_net (N : net D) : Prop := {
  wf_out : forall x u, In x (n_out N u) ->
    n_from N x = u /\ x < n_arcs N /\ u < n_nodes N /\ n_to N x < n_nodes N /\ In x (n_in N (n_to N x));
  wf_in : forall x v, In x (n_in N v) -> n_to N x = v /\ In x (n_out N (n_from N x));
  wf_nd_out : forall u, NoDup (n_out N u);
  wf_nd_in : forall u, NoDup (n_in N u);
  wf_rank : exists r : nat -> nat, forall x u, In x (n_out N u) -> r u < r (n_to N x);
  wf_start : n_start N < n_nodes N /\ n_in N (n_start N) = [];
  wf_stop : match n_stop N with
            | None => forall u, n_out N u = []
            | Some t => t < n_nodes N /\ n_out N t = [] /\ t <> n_start N /\ exists xs, npath N (n_start N) xs t
            end;
  wf_reach : forall x u, In x (n_out N u) -> exists xs, npath N (n_start N) xs u;
  wf_coreach : forall x u, In x (n_out N u) -> exists t xs, n_stop N = Some t /\ npath N (n_to N x) xs t
}.

(** Histories of additions at the ends. *)
Inductive end_op := AtHead (d : D) | AtTail (d : D).
Definition net_run1 (N : net D) (o : end_op) : net D :=
  match o with AtHead d => add_head N (Some d) | AtTail d => add_tail N (Some d) end.
Definition list_run1 (l : list D) (o : end_op) : list D :=
  match o with AtHead d => d :: l | AtTail d => l ++ [d] end.

(** Nodes that can be reached from the start. *)
Definition reachable (N : net D) (u : nat) : Prop := exists xs, npath N (n_start N) xs u.

End Net.
