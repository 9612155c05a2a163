(** Copying of sclite's word networks: src/sclite/net_adt.c [Network_copy].  The table of nodes,
    whose size follows the counter [node_count], is a list here. *)
From Coq Require Import List ZArith Arith Bool.
From Verif Require Import Base Net_Model Merge_Model NetDp_Model.
Import ListNotations.
Local Open Scope res_scope.

Section Copy.
Context {D : Type}.
(** [arc_func.copy] on data; the copy of the null pointer is the null pointer (word.c:424). *)
Variable copy : D -> D.
Definition dup (o : option D) : option D := option_map copy o.

(** net_adt.c:1106-1125 [insert_node_in_node_map]: the first row of a node; a node that has a row
    keeps it. *)
Fixpoint look (m : list (nat * nat)) (v : nat) : option nat :=
  match m with
  | [] => None
  | (a, b) :: r => if a =? v then Some b else look r v
  end.
Definition put_node (m : list (nat * nat)) (v q : nat) : list (nat * nat) :=
  match look m v with Some _ => m | None => m ++ [(v, q)] end.

(** A network of a word and a null arc: 1156-1159 on the fresh output, 1197-1210. *)
Definition pair_net (d : option D) : net D := add_tail (add_tail net_init d) None.

(** net_adt.c:1140-1245 [nt_copy_arc].  The searches for the arc that was just made find the one
    arc that leaves the start; its number is the next one.  Without a row of the table the index
    is -1. *)
Definition copy_arc (N : net D) (st : net D * list (nat * nat)) (x : nat) : res (net D * list (nat * nat)) :=
  let (C, m0) := st in
  let u := n_from N x in
  let v := n_to N x in
  let d := dup (n_data N x) in
  let m := if u =? n_start N then put_node m0 u (n_start C) else m0 in
  if (u =? n_start N) && match n_stop C with None => true | _ => false end then
    let C1 := add_tail (add_tail C d) None in
    Ok (C1, put_node m v (n_to C1 (n_arcs C)))
  else
    match look m v with
    | None =>
        match look m u, n_stop C with
        | Some p, Some t =>
            let* C1 := merge C p t (pair_net d) in
            Ok (C1, put_node m v (n_to C1 (n_arcs C)))
        | _, _ => Undef
        end
    | Some q =>
        match look m u with
        | Some p => Ok (insert_between C p q d, m)
        | None => Undef
        end
    end.

(** net_adt.c:1127-1138, 1373-1395 [Network_delete_null_arcs]: the arcs without data are listed by
    a traversal and deleted in that order. *)
Definition is_null_arc (N : net D) (x : nat) : bool := match n_data N x with None => true | Some _ => false end.
Definition delete_nulls (C : net D) : res (net D) :=
  let* xs := traverse_arcs Depth (S (n_nodes C)) C in
  Ok (fold_left delete_arc (filter (is_null_arc C) xs) C).

(** net_adt.c:1247-1275 [Network_copy] *)
Definition copy_net (N : net D) : res (net D) :=
  let* xs := traverse_arcs Depth (S (n_nodes N)) N in
  let* st := rfold (copy_arc N) xs (net_init, []) in
  delete_nulls (fst st).
End Copy.
