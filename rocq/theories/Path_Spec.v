(** What sorting by time marks may change. *)
From Coq Require Import List Arith ZArith Bool Permutation Sorted.
From Verif Require Import NetDp_Model Word_Model.
Import ListNotations.
Local Open Scope nat_scope.

(** a step of a path pairs a reference and a hypothesis word, or has only one of them *)
Definition pair_step (s : step word) : Prop := snd s = PCorr \/ snd s = PSub.
Definition single_step (s : step word) : Prop := snd s = PIns \/ snd s = PDel.
Definition well_formed_step (s : step word) : Prop :=
  match s with
  | (a, b, PCorr) | (a, b, PSub) => a <> None /\ b <> None
  | (a, b, PIns) => a = None /\ b <> None
  | (a, b, PDel) => a <> None /\ b = None
  end.
(** the begin time of the only word of an insertion or deletion *)
Definition begin_time (s : step word) : Z :=
  match s with
  | (Some w, _, PDel) => w_t1 w
  | (_, Some w, _) => w_t1 w
  | _ => 0%Z
  end.

(** [run] is a whole run of insertions and deletions between [pre] and [post] *)
Definition maximal (pre run post : list (step word)) : Prop :=
  Forall single_step run
  /\ (pre = [] \/ exists p s, pre = p ++ [s] /\ pair_step s)
  /\ (post = [] \/ exists s p, post = s :: p /\ pair_step s).

Definition at_time (t : Z) (l : list (step word)) : list (step word) := filter (fun s => (begin_time s =? t)%Z) l.

(** the same steps in order of time, steps of equal time in their old order *)
Definition time_sorted_from (l l' : list (step word)) : Prop :=
  Permutation l' l
  /\ StronglySorted (fun s s' => (begin_time s <= begin_time s')%Z) l'
  /\ (forall t, at_time t l' = at_time t l).

(** what a history of appends and removals leaves: a stack *)
Inductive stack_op {A : Type} := Push (x : A) | Pop.
Arguments stack_op : clear implicits.
Fixpoint stack_after {A} (l : list A) (ops : list (stack_op A)) : list A :=
  match ops with
  | [] => l
  | Push x :: r => stack_after (l ++ [x]) r
  | Pop :: r => stack_after (removelast l) r
  end.
