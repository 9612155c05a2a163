(** Joining of sclite's word networks: src/sclite/net_adt.c.

    The networks are those of Net_Model.  Networks are allocated separately, so a network that is
    merged into another brings nodes and arcs of its own: they are numbered after those of the
    other one.  The name of a node is only used to tell START and STOP; it is modelled by comparing
    with the start and the stop of the network (the names of the nodes of a network that is merged
    are prefixed, so they are neither).  Freed nodes keep empty arc lists. *)
From Coq Require Import List ZArith Arith Bool.
From Verif Require Import Base Net_Model.
Import ListNotations.
Local Open Scope res_scope.

Section Merge.
Context {D : Type}.

(** net_adt.c:254-323 [Network_merge_network], the stop of [M] being [t]. *)
Definition merge_at (N : net D) (u v : nat) (M : net D) (t : nat) : net D :=
  let dn := n_nodes N in
  let da := n_arcs N in
  let so := n_out M (n_start M) in
  let ti := n_in M t in
  {| n_from := fun x => if x <? da then n_from N x else if mem (x - da) so then u else dn + n_from M (x - da);
     n_to := fun x => if x <? da then n_to N x else if mem (x - da) ti then v else dn + n_to M (x - da);
     n_data := fun x => if x <? da then n_data N x else n_data M (x - da);
     n_in := fun n => if n <? dn then (if n =? v then add_arcs (n_in N n) (map (Nat.add da) ti) else n_in N n)
                      else if (n - dn =? t) then [] else map (Nat.add da) (n_in M (n - dn));
     n_out := fun n => if n <? dn then (if n =? u then add_arcs (n_out N n) (map (Nat.add da) so) else n_out N n)
                       else if (n - dn =? n_start M) then [] else map (Nat.add da) (n_out M (n - dn));
     n_start := n_start N; n_stop := n_stop N;
     n_nodes := dn + n_nodes M; n_arcs := da + n_arcs M |}.
(** A network without words has no stop node: line 297 reads through the null pointer. *)
Definition merge (N : net D) (u v : nat) (M : net D) : res (net D) :=
  match n_stop M with None => Undef | Some t => Ok (merge_at N u v M t) end.

(** Moves the arcs that enter [u] to [v] and frees [u]: 408-417, 448-461. *)
Definition pull_in (N : net D) (u v : nat) : net D :=
  let moved := n_in N u in
  {| n_from := n_from N; n_to := fupds (n_to N) moved v; n_data := n_data N;
     n_in := fupd (fupd (n_in N) v (add_arcs (n_in N v) moved)) u [];
     n_out := fupd (n_out N) u []; n_start := n_start N; n_stop := n_stop N; n_nodes := n_nodes N; n_arcs := n_arcs N |}.
(** Moves the arcs that leave [v] to [u] and frees [v]: 426-434. *)
Definition pull_out (N : net D) (u v : nat) : net D :=
  let moved := n_out N v in
  {| n_from := fupds (n_from N) moved u; n_to := n_to N; n_data := n_data N;
     n_in := fupd (n_in N) v [];
     n_out := fupd (fupd (n_out N) u (add_arcs (n_out N u) moved)) v [];
     n_start := n_start N; n_stop := n_stop N; n_nodes := n_nodes N; n_arcs := n_arcs N |}.
(** Frees [v], the stop: 418-423, 441-447. *)
Definition kill_stop (N : net D) (v : nat) : net D :=
  {| n_from := n_from N; n_to := n_to N; n_data := n_data N;
     n_in := fupd (n_in N) v []; n_out := fupd (n_out N) v []; n_start := n_start N; n_stop := None; n_nodes := n_nodes N; n_arcs := n_arcs N |}.
Definition is_stop (N : net D) (v : nat) : bool := match n_stop N with Some t => v =? t | None => false end.
Definition empty {A} (l : list A) : bool := match l with [] => true | _ => false end.
(** net_adt.c:346-465 [Network_delete_arc]. *)
Definition delete_arc (N : net D) (x : nat) : net D :=
  let u := n_from N x in
  let v := n_to N x in
  let N1 := {| n_from := n_from N; n_to := n_to N; n_data := n_data N;
               n_in := fupd (n_in N) v (del_arc (n_in N v) x);
               n_out := fupd (n_out N) u (del_arc (n_out N u) x);
               n_start := n_start N; n_stop := n_stop N; n_nodes := n_nodes N; n_arcs := n_arcs N |} in
  (* the first step: the network and which of the two nodes are left *)
  let '(N2, u_left, v_left) :=
    if empty (n_in N1 v) then
      if is_stop N1 v then
        if negb (u =? n_start N1) then (pull_in N1 u v, false, true)
        else (kill_stop N1 v, true, false)
      else (pull_out N1 u v, true, false)
    else (N1, true, true) in
  if u_left && empty (n_out N2 u) then
    if u =? n_start N2 then (if v_left then kill_stop N2 v else N2)
    else pull_in N2 u v
  else N2.

(** net_adt.c:40-66 [Network_add_net_to_tail]: the null arc is the first that enters the stop. *)
Definition add_net_tail (N M : net D) : res (net D) :=
  let N1 := add_tail N None in
  match n_stop N1 with
  | None => Undef
  | Some t =>
      match n_in N1 t with
      | [] => Undef
      | x :: _ => let* N2 := merge N1 (n_from N1 x) t M in Ok (delete_arc N2 x)
      end
  end.
(** net_adt.c:69-95 [Network_add_net_to_head] *)
Definition add_net_head (N M : net D) : res (net D) :=
  let N1 := add_head N None in
  match n_out N1 (n_start N1) with
  | [] => Undef
  | x :: _ => let* N2 := merge N1 (n_from N1 x) (n_to N1 x) M in Ok (delete_arc N2 x)
  end.
(** Replacing an arc by a network: net_adt.c:1018-1019. *)
Definition replace_arc (N : net D) (x : nat) (M : net D) : res (net D) :=
  let* N2 := merge N (n_from N x) (n_to N x) M in Ok (delete_arc N2 x).
(** Putting a network beside another: net_adt.c:1002-1003.  Without a stop the arcs would be
    linked to a null pointer. *)
Definition beside (N M : net D) : res (net D) :=
  match n_stop N with None => Undef | Some t => merge N (n_start N) t M end.
(** net_adt.c:327-342 [Network_destroy]: the number of arcs deleted and the network at the end.
    An iteration costs a unit of fuel. *)
Fixpoint destroy (fuel : nat) (N : net D) : res (nat * net D) :=
  match n_out N (n_start N) with
  | [] => Ok (0, N)
  | x :: _ =>
      match fuel with
      | 0 => NoFuel
      | S f => let* r := destroy f (delete_arc N x) in Ok (S (fst r), snd r)
      end
  end.
End Merge.
