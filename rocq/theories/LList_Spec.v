(** Sequences that grow at both ends, as the linked lists are meant to be. *)
From Coq Require Import List Arith.
From Verif Require Import LList_Model.
Import ListNotations.

Section Spec.
Context {D : Type}.
(** the contents of every list variable *)
Definition contents := nat -> list D.
Definition set_list (c : contents) (x : nat) (l : list D) : contents := fun y => if y =? x then l else c y.

(** [sub l m]: [l] is [m] with some elements left out *)
Inductive sub : list D -> list D -> Prop :=
| sub_nil : sub [] []
| sub_keep d l m : sub l m -> sub (d :: l) (d :: m)
| sub_drop d l m : sub l m -> sub l (d :: m).

(** what each operation may do; the first number returned is 0 when no memory was left *)
Inductive deque_step : contents -> op D -> out D -> contents -> Prop :=
| ds_init c x : deque_step c (Init x) (1, None) (set_list c x [])
| ds_front c x d : deque_step c (PutFront x d) (1, None) (set_list c x (d :: c x))
| ds_front_fail c x d : deque_step c (PutFront x d) (0, None) c
| ds_tail c x d : deque_step c (PutTail x d) (1, None) (set_list c x (c x ++ [d]))
| ds_tail_fail c x d : deque_step c (PutTail x d) (0, None) c
| ds_get c x d l : c x = d :: l -> deque_step c (GetFirst x) (1, Some d) (set_list c x l)
| ds_get_empty c x : c x = [] -> deque_step c (GetFirst x) (0, None) c
| ds_copy c t f l : t <> f -> sub l (c f) -> deque_step c (Copy t f) (1, None) (set_list c t l)
| ds_copy_self c t : deque_step c (Copy t t) (1, None) (set_list c t []).

Inductive deque_run : contents -> list (op D) -> list (out D) -> contents -> Prop :=
| dr_nil c : deque_run c [] [] c
| dr_cons c o r c' os rs c'' : deque_step c o r c' -> deque_run c' os rs c'' ->
    deque_run c (o :: os) (r :: rs) c''.

(** malloc returns only memory that is not in use *)
Definition fresh_only {T} (malloc : T -> heap D -> option nat * T) : Prop :=
  forall t h a t', malloc t h = (Some a, t') -> h a = None.
(** malloc does not fail as long as it and the memory are in a condition [P], which allocating,
    writing to allocated memory and releasing it preserve *)
Definition reliable {T} (malloc : T -> heap D -> option nat * T) (P : T -> heap D -> Prop) : Prop :=
  (forall t h, P t h -> exists a t', malloc t h = (Some a, t') /\ forall c, P t' (upd h a (Some c)))
  /\ (forall t h a c, P t h -> h a <> None -> P t (upd h a c)).

(** the list a variable points to in a memory *)
Inductive holds_list (h : heap D) : ptr -> list D -> Prop :=
| hl_nil : holds_list h None []
| hl_cons a d p l : h a = Some {| n_data := d; n_next := p |} -> holds_list h p l ->
    holds_list h (Some a) (d :: l).
End Spec.
Arguments contents : clear implicits.
