(** What the two tests count, on the columns of the table of percentages. *)
From Coq Require Import List Arith ZArith QArith Bool.
From Verif Require Import Order_Model Order_Spec Binom_Spec.
Import ListNotations.
Local Open Scope nat_scope.

(** the percentages of one system, one per speaker; [in_table]: every speaker has that system *)
Definition column (t : nat) (pcts : list (list Z)) : list Z := map (fun row => nth t row 0%Z) pcts.
Definition in_table (t : nat) (pcts : list (list Z)) : Prop := forall row, In row pcts -> t < length row.

Fixpoint zsum (l : list Z) : Z := match l with [] => 0%Z | x :: l' => (x + zsum l')%Z end.
(** the total of a system, which is its average times the number of speakers *)
Definition sum_of (t : nat) (pcts : list (list Z)) : Z := zsum (column t pcts).

Definition diffs (xs ys : list Z) : list Z := map (fun p => (fst p - snd p)%Z) (combine xs ys).
(** speakers on which the first system has the larger percentage, the smaller one, about the same *)
Definition more (thr : Z) (xs ys : list Z) : nat := length (filter (fun d => thr <? d)%Z (diffs xs ys)).
Definition less (thr : Z) (xs ys : list Z) : nat := length (filter (fun d => thr <? - d)%Z (diffs xs ys)).
Definition same (thr : Z) (xs ys : list Z) : nat := length (filter (fun d => Z.abs d <=? thr)%Z (diffs xs ys)).

(** the probability of a split at least as uneven as a : b when each of a + b speakers is a fair toss *)
Definition two_sided (a b : nat) : Q :=
  if a =? b then 1%Q else (2 * at_most (Nat.min a b) (a + b) (1 # 2))%Q.

(** the system with the first total is the better one: fewer errors, or more words right *)
Definition better (zero_is_best : bool) (s1 s2 : Z) : Prop :=
  if zero_is_best then (s1 < s2)%Z else (s2 < s1)%Z.

(** the signed-rank test: the speakers counted for the first system, the ones with about the same
    percentages going to the two systems in turn, the first of them to the first system *)
Fixpoint for_first (thr : Z) (ds : list Z) (tie_to_first : bool) : list bool :=
  match ds with
  | [] => []
  | d :: ds' =>
      if (thr <? - d)%Z then false :: for_first thr ds' tie_to_first
      else if (thr <? d)%Z then true :: for_first thr ds' tie_to_first
      else tie_to_first :: for_first thr ds' (negb tie_to_first)
  end.
Definition tally (b : bool) (l : list bool) : nat := length (filter (Bool.eqb b) l).
(** the sum of the ranks, among the absolute differences, of the speakers counted for one side *)
Fixpoint rank_sum (all ds : list Z) (b : bool) (l : list bool) : Q :=
  match ds, l with
  | d :: ds', c :: l' =>
      ((if Bool.eqb b c then mean_rank Increasing (map Z.abs all) (Z.abs d) else 0) + rank_sum all ds' b l')%Q
  | _, _ => 0%Q
  end.
