(** The binomial distribution from first principles: sequences of independent trials. *)
From Coq Require Import List Arith ZArith QArith.
Import ListNotations.
Local Open Scope Q_scope.

(** all results of [n] trials, a success being [true] *)
Fixpoint outcomes (n : nat) : list (list bool) :=
  match n with
  | O => [[]]
  | S n' => map (cons true) (outcomes n') ++ map (cons false) (outcomes n')
  end.
Definition successes (l : list bool) : nat := length (filter (fun b => b) l).

(** the probability of one sequence of results, each success having probability [p] *)
Fixpoint prob (p : Q) (l : list bool) : Q :=
  match l with
  | [] => 1
  | b :: l' => (if b then p else 1 - p) * prob p l'
  end.
Fixpoint qsum (l : list Q) : Q := match l with [] => 0 | x :: l' => x + qsum l' end.

(** the probability of at most [R] successes in [n] trials *)
Definition at_most (R n : nat) (p : Q) : Q :=
  qsum (map (prob p) (filter (fun l => successes l <=? R)%nat (outcomes n))).
(** the number of ways to have [r] successes in [n] trials *)
Definition ways (n r : nat) : nat := length (filter (fun l => successes l =? r)%nat (outcomes n)).
