(** Alignment paths of sclite: the growing array of steps and the sorting by time marks,
    /repo/src/sclite/path.c. *)
From Coq Require Import List Arith ZArith NArith Bool.
From Verif Require Import Base NetDp_Model Word_Model Order_Model.
Import ListNotations.
Local Open Scope res_scope.
Local Open Scope nat_scope.

Section Array.
Context {A : Type}.
(** path.h PATH: [pset] and [max] are the list of cells and its length, a cell not written yet being
    [None]; [num] *)
Record path := { p_pset : list (option A); p_num : nat }.

(** path.c:29-46 [PATH_alloc]; the size is an int *)
Definition path_alloc (s : Z) : res path :=
  let s := if (s <? 4)%Z then 5%Z else s in
  Ok {| p_pset := repeat None (Z.to_nat s); p_num := 0 |}.

(** memory.h:159-167 [expand_singarr]: a new array of [max * fact] cells (the factor is [num / den])
    with the first [n] cells copied; the copy must stay inside both arrays *)
Definition expand_singarr {B} (undefd : B) (a : list B) (n num den : nat) : res (list B) :=
  let newmax := length a * num / den in
  if (n <=? length a) && (n <=? newmax) then Ok (firstn n a ++ repeat undefd (newmax - n)) else Undef.

(** path.c:48-51 [check_space_in_PATH] *)
Definition check_space (p : path) : res path :=
  if length (p_pset p) <=? p_num p
  then let* a := expand_singarr None (p_pset p) (p_num p) 2 1 in Ok {| p_pset := a; p_num := p_num p |}
  else Ok p.
(** path.c:588-595 [PATH_append] *)
Definition path_append (p : path) (x : A) : res path :=
  let* p := check_space p in
  let* a := set (p_pset p) (p_num p) (Some x) in
  Ok {| p_pset := a; p_num := p_num p + 1 |}.
(** path.c:597-601 [PATH_remove] *)
Definition path_remove (p : path) : path :=
  {| p_pset := p_pset p; p_num := if 0 <? p_num p then p_num p - 1 else p_num p |}.

Inductive path_op := Append (x : A) | Remove.
Fixpoint path_run (p : path) (ops : list path_op) : res path :=
  match ops with
  | [] => Ok p
  | Append x :: r => let* p := path_append p x in path_run p r
  | Remove :: r => path_run (path_remove p) r
  end.
End Array.
Arguments path : clear implicits.
Arguments path_op : clear implicits.

(** * sorting by time marks, on the [num] steps of the path *)
Definition wstep := step word.
Definition is_id (s : wstep) : bool := match snd s with PIns | PDel => true | _ => false end.
(** path.c:630-635: the begin time of the word of an insertion or deletion; without the word the null
    pointer is followed *)
Definition time_of (s : wstep) : res Z :=
  match s with
  | (a, _, PDel) => match a with Some w => Ok (w_t1 w) | None => Undef end
  | (_, b, _) => match b with Some w => Ok (w_t1 w) | None => Undef end
  end.
(** path.c:616-619: to the next insertion or deletion *)
Fixpoint skip_pairs (fuel : nat) (l : list wstep) (x : nat) : res nat :=
  match fuel with
  | O => NoFuel
  | S f => if x <? length l then let* s := get l x in if is_id s then Ok x else skip_pairs f l (x + 1) else Ok x
  end.
(** path.c:646-649: past the run *)
Fixpoint skip_run (fuel : nat) (l : list wstep) (x : nat) : res nat :=
  match fuel with
  | O => NoFuel
  | S f => if x <? length l then let* s := get l x in if is_id s then skip_run f l (x + 1) else Ok x else Ok x
  end.
(** path.c:624-644: one pass over the run *)
Fixpoint pass (fuel : nat) (l : list wstep) (tx : nat) (change : bool) : res (list wstep * bool) :=
  match fuel with
  | O => NoFuel
  | S f =>
      if tx <? length l then
        let* s := get l tx in
        if is_id s then
          let* s0 := get l (tx - 1) in
          let* ta := time_of s0 in
          let* tb := time_of s in
          if (tb <? ta)%Z then
            let* l := set l tx s0 in
            let* l := set l (tx - 1) s in
            pass f l (tx + 1) true
          else pass f l (tx + 1) change
        else Ok (l, change)
      else Ok (l, change)
  end.
(** path.c:622-645: passes until nothing changes *)
Fixpoint passes (fuel : nat) (l : list wstep) (x : nat) : res (list wstep) :=
  match fuel with
  | O => NoFuel
  | S f =>
      if x <? length l then
        let* (l, change) := pass (S (length l)) l (x + 1) false in
        if change : bool then passes f l x else Ok l
      else Ok l
  end.
(** path.c:608-652 [sort_PATH_time_marks] *)
Fixpoint sort_loop (fuel : nat) (l : list wstep) (x : nat) : res (list wstep) :=
  match fuel with
  | O => NoFuel
  | S f =>
      if x <? length l then
        let* x := skip_pairs (S (length l)) l x in
        let* l := passes (S (length l * length l)) l x in
        let* x := skip_run (S (length l)) l x in
        sort_loop f l x
      else Ok l
  end.
Definition sort_time_marks (l : list wstep) : res (list wstep) := sort_loop (S (length l)) l 0.
