(** sclite's word networks: src/sclite/net_adt.c, addarc1.c, delarc1.c, marc1.c, mnode1.c.
    Nodes and arcs are numbers given in the order of allocation; each network has its own
    numbers (separately allocated networks share no node or arc).  Node names, [flag2] (the
    visited marks of traversals, modelled by a list of visited nodes) and the counters
    [node_count] and [weight] are not modelled. *)
From Coq Require Import List ZArith Arith Bool.
From Verif Require Import Base.
Import ListNotations.
Local Open Scope res_scope.

Section Net.
Context {D : Type}.

(** netstr1.h:24-52 [ARC], [NODE], [NETWORK].  [n_nodes] and [n_arcs] are the next numbers;
    [n_data x] is [None] for the data pointer 0. *)
Record net := {
  n_from : nat -> nat; n_to : nat -> nat; n_data : nat -> option D;
  n_in : nat -> list nat; n_out : nat -> list nat;
  n_start : nat; n_stop : option nat; n_nodes : nat; n_arcs : nat }.

Definition fupd {A} (f : nat -> A) (k : nat) (v : A) : nat -> A :=
  fun i => if i =? k then v else f i.
Definition mem (x : nat) (l : list nat) : bool := existsb (Nat.eqb x) l.
(** Set [f] to [v] on the members of [l]. *)
Definition fupds {A} (f : nat -> A) (l : list nat) (v : A) : nat -> A :=
  fun i => if mem i l then v else f i.

(** addarc1.c:5-59 [add_to_arc_list]: at the end, unless it is there. *)
Definition add_arc (l : list nat) (x : nat) : list nat := if mem x l then l else l ++ [x].
Definition add_arcs (l : list nat) (xs : list nat) : list nat := fold_left add_arc xs l.
(** delarc1.c:6-36 [del_from_arc_list]. *)
Definition del_arc (l : list nat) (x : nat) : list nat := filter (fun y => negb (y =? x)) l.

(** net_adt.c:516-560 [Network_init]: a start node and nothing else. *)
Definition net_init : net :=
  {| n_from := fun _ => 0; n_to := fun _ => 0; n_data := fun _ => None;
     n_in := fun _ => []; n_out := fun _ => []; n_start := 0; n_stop := None; n_nodes := 1; n_arcs := 0 |}.

(** net_adt.c:801-858 [NETWORK_insert_arc_after_node]: a new arc from [u] to a new node, which
    takes over the arcs that left [u]. *)
Definition insert_after (N : net) (u : nat) (d : option D) : net :=
  let x := n_arcs N in
  let v := n_nodes N in
  let moved := n_out N u in
  {| n_from := fupds (fupd (n_from N) x u) moved v;
     n_to := fupd (n_to N) x v;
     n_data := fupd (n_data N) x d;
     n_in := fupd (n_in N) v [x];
     n_out := fupd (fupd (n_out N) v (add_arcs [] moved)) u [x];
     n_start := n_start N;
     n_stop := match n_stop N with None => Some v | s => s end;
     n_nodes := S v; n_arcs := S x |}.

(** net_adt.c:861-912 [NETWORK_insert_arc_before_node]: a new arc to [t] from a new node, which
    takes over the arcs that entered [t]. *)
Definition insert_before (N : net) (t : nat) (d : option D) : net :=
  let x := n_arcs N in
  let v := n_nodes N in
  let moved := n_in N t in
  {| n_from := fupd (n_from N) x v;
     n_to := fupds (fupd (n_to N) x t) moved v;
     n_data := fupd (n_data N) x d;
     n_in := fupd (fupd (n_in N) v (add_arcs [] moved)) t [x];
     n_out := fupd (n_out N) v [x];
     n_start := n_start N; n_stop := n_stop N;
     n_nodes := S v; n_arcs := S x |}.

(** net_adt.c:914-945 [NETWORK_insert_arc_between_node]. *)
Definition insert_between (N : net) (u v : nat) (d : option D) : net :=
  let x := n_arcs N in
  {| n_from := fupd (n_from N) x u;
     n_to := fupd (n_to N) x v;
     n_data := fupd (n_data N) x d;
     n_in := fupd (n_in N) v (add_arc (n_in N v) x);
     n_out := fupd (n_out N) u (add_arc (n_out N u) x);
     n_start := n_start N; n_stop := n_stop N;
     n_nodes := n_nodes N; n_arcs := S x |}.

(** net_adt.c:15-24 [Network_add_arc_to_head]. *)
Definition add_head (N : net) (d : option D) : net := insert_after N (n_start N) d.
(** net_adt.c:26-38 [Network_add_arc_to_tail]. *)
Definition add_tail (N : net) (d : option D) : net :=
  match n_stop N with
  | None => insert_after N (n_start N) d
  | Some s => insert_before N s d
  end.

(** net_adt.c:97-249 [Network_traverse], forward.  [Depth] pushes at the front of the fringe,
    [Breadth] and [Inorder] at its tail; [Inorder] counts the entering arcs of a node down and
    skips the node while any is left. *)
Inductive mode := Depth | Breadth | Inorder.

(** The loop over the leaving arcs of a popped node, 202-235. *)
Fixpoint push_all (m : mode) (N : net) (xs : list nat) (fringe : list nat) (cnt : nat -> Z) (seen : list nat)
    : list nat * (nat -> Z) * list nat :=
  match xs with
  | [] => (fringe, cnt, seen)
  | x :: r =>
      let v := n_to N x in
      let cnt1 := match m with Inorder => fupd cnt v (cnt v - 1)%Z | _ => cnt end in
      if match m with Inorder => (0 <? cnt1 v)%Z | _ => false end then push_all m N r fringe cnt1 seen
      else if mem v seen then push_all m N r fringe cnt1 seen
      else push_all m N r (match m with Depth => v :: fringe | _ => fringe ++ [v] end) cnt1 (v :: seen)
  end.

(** The nodes in the order in which they are popped.  Each pop costs a unit of fuel. *)
Fixpoint trav (m : mode) (fuel : nat) (N : net) (fringe : list nat) (cnt : nat -> Z) (seen : list nat)
    : res (list nat) :=
  match fringe with
  | [] => Ok []
  | u :: r =>
      match fuel with
      | 0 => NoFuel
      | S f =>
          let '(fringe1, cnt1, seen1) := push_all m N (n_out N u) r cnt seen in
          let* rest := trav m f N fringe1 cnt1 seen1 in
          Ok (u :: rest)
      end
  end.

(** net_adt.c:131-143: before an [Inorder] traversal a [Depth] one sets the counters of the nodes it
    visits to the number of arcs that enter them (1085-1094).  The counters of other nodes keep
    an older value, here 0; they are not used. *)
Definition traverse_nodes (m : mode) (fuel : nat) (N : net) : res (list nat) :=
  let* cnt :=
    match m with
    | Inorder =>
        let* ns := trav Depth fuel N [n_start N] (fun _ => 0%Z) [n_start N] in
        Ok (fun v => if mem v ns then Z.of_nat (length (n_in N v)) else 0%Z)
    | _ => Ok (fun _ => 0%Z)
    end in
  trav m fuel N [n_start N] cnt [n_start N].

(** net_adt.c:237-243: the arcs that leave a popped node, when nothing is changed meanwhile. *)
Definition traverse_arcs (m : mode) (fuel : nat) (N : net) : res (list nat) :=
  let* ns := traverse_nodes m fuel N in Ok (flat_map (n_out N) ns).

End Net.
Arguments net D : clear implicits.
