(** Model of asclite's Statistics (statistics.cpp), used for the sums, means, standard
    deviations and medians of the reports. Doubles are exact rationals; the square root of the
    standard deviation and the width of the columns (m_MaxSize) are not modelled. *)
From Coq Require Import List QArith Arith Bool.
Import ListNotations.
Local Open Scope Q_scope.

(** sort of the standard library, statistics.cpp:41, as an insertion sort. *)
Fixpoint insert (x : Q) (l : list Q) : list Q :=
  match l with [] => [x] | y :: r => if Qle_bool x y then x :: l else y :: insert x r end.
Fixpoint qsort (l : list Q) : list Q := match l with [] => [] | x :: r => insert x (qsort r) end.

(** [st_variance] is the value under the square root, None when it is 0/0. *)
Record stats := { st_sum : Q; st_mean : Q; st_variance : option Q; st_median : Q; st_size : nat }.

(** statistics.cpp:45-50: the loop over the values. *)
Definition sums (l : list Q) : Q * Q := fold_left (fun s x => (fst s + x, snd s + x * x)) l (0, 0).
Definition qn (n : nat) : Q := inject_Z (Z.of_nat n).
(** The element at a position; positions outside do not occur. *)
Definition at_pos (l : list Q) (i : nat) : option Q := nth_error l i.

(** statistics.cpp:34-71 [Compute]; None stands for a read outside the vector. *)
Definition compute (values : list Q) : option stats :=
  match values with
  | [] => Some {| st_sum := 0; st_mean := 0; st_variance := Some 0; st_median := 0; st_size := 0 |}
  | _ =>
    let v := qsort values in
    let n := List.length v in
    let (s, q) := sums v in
    let mean := s / qn n in
    let var := if Nat.eqb n 1 then None else Some ((qn n * q - s * s) / (qn n * (qn n - 1))) in
    if Nat.even n then
      match at_pos v (Nat.div2 n), at_pos v (Nat.div2 n - 1) with
      | Some a, Some b => Some {| st_sum := s; st_mean := mean; st_variance := var; st_median := (a + b) / 2; st_size := n |}
      | _, _ => None
      end
    else
      match at_pos v (Nat.div2 n) with
      | Some a => Some {| st_sum := s; st_mean := mean; st_variance := var; st_median := a; st_size := n |}
      | None => None
      end
  end.

(** statistics.h:41-44: the accessors with [safe]. *)
Definition get (safe : bool) (v : Q) : Q := if Qeq_bool v 0 && safe then 1 else v.
