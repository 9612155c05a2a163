(** The linked lists of sclite, /repo/src/sclite/llist.c. *)
From Coq Require Import List Arith Bool.
From Verif Require Import Base.
Import ListNotations.
Local Open Scope res_scope.

Section LList.
Context {D : Type}.
(** llist.h: a node; a pointer to a node is [None] when null *)
Definition ptr := option nat.
Record node := { n_data : D; n_next : ptr }.
(** the memory the nodes live in *)
Definition heap := nat -> option node.
Definition upd (h : heap) (a : nat) (c : option node) : heap := fun b => if b =? a then c else h b.
(** reading through a null pointer or one to released memory is undefined *)
Definition load (h : heap) (p : ptr) : res node :=
  match p with
  | None => Undef
  | Some a => match h a with Some c => Ok c | None => Undef end
  end.
(** malloc: an arbitrary function of the memory and of a state of its own; [None] is failure *)
Context {T : Type}.
Variable malloc : T -> heap -> option nat * T.

(** the variables of type [LList *], by number *)
Record state := { s_heap : heap; s_var : nat -> ptr; s_malloc : T }.
Definition set_var (v : nat -> ptr) (x : nat) (p : ptr) : nat -> ptr := fun y => if y =? x then p else v y.

(** llist.c:18-32 [getLList] *)
Definition get_llist (s : state) (d : D) : ptr * state :=
  let '(r, t) := malloc (s_malloc s) (s_heap s) in
  match r with
  | Some a => (Some a, {| s_heap := upd (s_heap s) a (Some {| n_data := d; n_next := None |});
                          s_var := s_var s; s_malloc := t |})
  | None => (None, {| s_heap := s_heap s; s_var := s_var s; s_malloc := t |})
  end.

(** llist.c:52-55 [LL_init] *)
Definition ll_init (s : state) (x : nat) : state :=
  {| s_heap := s_heap s; s_var := set_var (s_var s) x None; s_malloc := s_malloc s |}.

(** llist.c:75-78 [LL_empty] *)
Definition ll_empty (p : ptr) : bool := match p with None => true | Some _ => false end.

(** llist.c:85-102 [LL_put_front]; the result is the returned number *)
Definition put_front (s : state) (x : nat) (d : D) : res (nat * state) :=
  let '(p, s) := get_llist s d in
  match p with
  | None => Ok (0, s)
  | Some a =>
      let* c := load (s_heap s) (Some a) in
      Ok (1, {| s_heap := upd (s_heap s) a (Some {| n_data := n_data c; n_next := s_var s x |});
                s_var := set_var (s_var s) x (Some a); s_malloc := s_malloc s |})
  end.

(** llist.c:122-124: the walk to the last node *)
Fixpoint walk (fuel : nat) (h : heap) (p : ptr) : res ptr :=
  match fuel with
  | O => NoFuel
  | S f =>
      let* c := load h p in
      if ll_empty (n_next c) then Ok p else walk f h (n_next c)
  end.

(** llist.c:107-131 [LL_put_tail] *)
Definition put_tail (fuel : nat) (s : state) (x : nat) (d : D) : res (nat * state) :=
  if ll_empty (s_var s x) then put_front s x d
  else
    let pt1 := s_var s x in
    let '(p, s) := get_llist s d in
    match p with
    | None => Ok (0, s)
    | Some a =>
        let* q := walk fuel (s_heap s) pt1 in
        let* c := load (s_heap s) q in
        match q with
        | None => Undef
        | Some b =>
            let h := upd (s_heap s) b (Some {| n_data := n_data c; n_next := Some a |}) in
            let* c2 := load h (Some a) in
            Ok (1, {| s_heap := upd h a (Some {| n_data := n_data c2; n_next := None |});
                      s_var := s_var s; s_malloc := s_malloc s |})
        end
    end.

(** llist.c:138-159 [LL_get_first]: the number returned and the element stored through the pointer *)
Definition get_first (s : state) (x : nat) : res (nat * option D * state) :=
  if ll_empty (s_var s x) then Ok (0, None, s)
  else
    match s_var s x with
    | None => Undef
    | Some a =>
        let* c := load (s_heap s) (Some a) in
        Ok (1, Some (n_data c),
            {| s_heap := upd (s_heap s) a None; s_var := set_var (s_var s) x (n_next c); s_malloc := s_malloc s |})
    end.

(** llist.c:57-62 [recur]: the list is walked first, then its elements are put in front from the last
    to the first; the value returned by [LL_put_front] is not looked at *)
Fixpoint recur (fuel : nat) (s : state) (t : nat) (f : ptr) : res state :=
  if ll_empty f then Ok s
  else
    match fuel with
    | O => NoFuel
    | S k =>
        let* c := load (s_heap s) f in
        let* s := recur k s t (n_next c) in
        let* c := load (s_heap s) f in
        let* r := put_front s t (n_data c) in
        Ok (snd r)
    end.
(** llist.c:64-68 [LL_copy] *)
Definition ll_copy (fuel : nat) (s : state) (t f : nat) : res state :=
  let s := ll_init s t in
  recur fuel s t (s_var s f).

(** the operations of a program on its lists *)
Inductive op := Init (x : nat) | PutFront (x : nat) (d : D) | PutTail (x : nat) (d : D)
  | GetFirst (x : nat) | Copy (t f : nat).
(** what the program sees of an operation *)
Definition out := (nat * option D)%type.
Definition step (fuel : nat) (s : state) (o : op) : res (out * state) :=
  match o with
  | Init x => Ok (1, None, ll_init s x)
  | PutFront x d => let* r := put_front s x d in Ok (fst r, None, snd r)
  | PutTail x d => let* r := put_tail fuel s x d in Ok (fst r, None, snd r)
  | GetFirst x => let* r := get_first s x in Ok (fst (fst r), snd (fst r), snd r)
  | Copy t f => let* s := ll_copy fuel s t f in Ok (1, None, s)
  end.
Fixpoint run (fuel : nat) (s : state) (os : list op) : res (list out * state) :=
  match os with
  | [] => Ok ([], s)
  | o :: os =>
      let* r := step fuel s o in
      let* r2 := run fuel (snd r) os in
      Ok (fst r :: fst r2, snd r2)
  end.
Definition start (t : T) : state := {| s_heap := fun _ => None; s_var := fun _ => None; s_malloc := t |}.
End LList.
Arguments node : clear implicits.
Arguments heap : clear implicits.
Arguments op : clear implicits.
Arguments out : clear implicits.
