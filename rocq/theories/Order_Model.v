(** Sorting and ranking, /repo/src/sclite/order.c. *)
From Coq Require Import List Arith ZArith NArith QArith Bool.
From Verif Require Import Base.
Import ListNotations.
Local Open Scope res_scope.
Local Open Scope nat_scope.

(** reading and writing an array; outside it is undefined *)
Definition get {A} (l : list A) (i : nat) : res A :=
  match nth_error l i with Some x => Ok x | None => Undef end.
Fixpoint set {A} (l : list A) (i : nat) (x : A) : res (list A) :=
  match l, i with
  | [], _ => Undef
  | _ :: l', O => Ok (x :: l')
  | y :: l', S i' => let* r := set l' i' x in Ok (y :: r)
  end.

Inductive order := Increasing | Decreasing.

(** The values are integers; for doubles they stand for finite numbers, of which only the order is
    used. *)
(** order.c:56-59 [qsort_double_cmp], 60-63 [qsort_double_deccmp]: the sign of a difference *)
Definition sgn_diff (a b : Z) : Z := if (a - b <? 0)%Z then (-1)%Z else if (0 <? a - b)%Z then 1%Z else 0%Z.
(** order.c:37-42 [qsort_int_cmp], [qsort_int_deccmp]: a difference of ints.  Where it does not fit,
    which C leaves undefined, the model wraps it as the usual machines do. *)
Definition wrap32 (z : Z) : Z := ((z + 2 ^ 31) mod 2 ^ 32 - 2 ^ 31)%Z.
Definition int_diff (a b : Z) : Z := wrap32 (a - b).

(** the comparison functions get two indices; qsort passes only elements of the index array, which
    lie inside the array of values *)
Definition index_cmp (diff : Z -> Z -> Z) (o : order) (arr : list Z) (p p1 : nat) : Z :=
  let a := nth p arr 0%Z in
  let b := nth p1 arr 0%Z in
  match o with Increasing => diff a b | Decreasing => diff b a end.

Section Sort.
(** qsort of the C library *)
Variable qsort : (nat -> nat -> Z) -> list nat -> list nat.

(** order.c:94-107 [sort_double_arr]; 115-128 [sort_int_arr]; 73-86 [sort_short_arr] (where the
    difference of two shorts always fits) *)
Definition sort_double_arr (arr : list Z) (o : order) : list nat :=
  qsort (index_cmp sgn_diff o arr) (seq 0 (length arr)).
Definition sort_int_arr (arr : list Z) (o : order) : list nat :=
  qsort (index_cmp int_diff o arr) (seq 0 (length arr)).

(** order.c:219-222: the last position of a run of equal values *)
Fixpoint last_dup (fuel : nat) (arr : list Z) (ptr : list nat) (num count : nat) : res nat :=
  match fuel with
  | O => NoFuel
  | S f =>
      if count <? num - 1 then
        let* p := get ptr count in
        let* q := get ptr (count + 1) in
        let* a := get arr p in
        let* b := get arr q in
        if (a =? b)%Z then last_dup f arr ptr num (count + 1) else Ok count
      else Ok count
  end.
(** order.c:228-229: the same rank at [k] positions from [i] on *)
Fixpoint install (k i : nat) (ptr : list nat) (r : Q) (ranks : list Q) : res (list Q) :=
  match k with
  | O => Ok ranks
  | S k' =>
      let* p := get ptr i in
      let* ranks := set ranks p r in
      install k' (i + 1) ptr r ranks
  end.
(** order.c:213-236: the loop over the positions.  Ranks are exact fractions instead of doubles and
    the sum [tmp] is not bounded by the range of int. *)
Fixpoint rank_loop (fuel : nat) (arr : list Z) (ptr : list nat) (num j : nat) (ranks : list Q) : res (list Q) :=
  if num <=? j then Ok ranks
  else
    match fuel with
    | O => NoFuel
    | S f =>
        let* dup :=
          if j <? num - 1 then
            let* p := get ptr j in
            let* q := get ptr (j + 1) in
            let* a := get arr p in
            let* b := get arr q in
            Ok (a =? b)%Z
          else Ok false in
        if dup : bool then
          let* count := last_dup (S num) arr ptr num j in
          let tmp := list_sum (seq j (count + 1 - j)) in
          let r := (inject_Z (Z.of_nat tmp) / inject_Z (Z.of_nat (count + 1 - j)) + 1)%Q in
          let* ranks := install (count + 1 - j) j ptr r ranks in
          rank_loop f arr ptr num (count + 1) ranks
        else
          let* p := get ptr j in
          let* ranks := set ranks p (inject_Z (Z.of_nat (j + 1))) in
          rank_loop f arr ptr num (j + 1) ranks
    end.
(** order.c:251-275 [rank_double_arr]; [ranks] is the array before the call *)
Definition rank_double_arr (arr : list Z) (o : order) (ranks : list Q) : res (list nat * list Q) :=
  let ptr := sort_double_arr arr o in
  let* r := rank_loop (S (length arr)) arr ptr (length arr) 0 ranks in
  Ok (ptr, r).
(** order.c:206-239 [rank_int_arr] *)
Definition rank_int_arr (arr : list Z) (o : order) (ranks : list Q) : res (list nat * list Q) :=
  let ptr := sort_int_arr arr o in
  let* r := rank_loop (S (length arr)) arr ptr (length arr) 0 ranks in
  Ok (ptr, r).
End Sort.

(** strcmp of the C library on strings given by their bytes; the sign of the result *)
Fixpoint c_strcmp (s t : list N) : Z :=
  match s, t with
  | [], [] => 0%Z
  | [], _ => (-1)%Z
  | _, [] => 1%Z
  | a :: s', b :: t' =>
      if (a =? b)%N then c_strcmp s' t' else if (a <? b)%N then (-1)%Z else 1%Z
  end.

Section Bubble.
Context {A : Type}.
(** whether two neighbours are exchanged *)
Variable exch : A -> A -> res bool.
(** order.c:178-182, 188-192, 144-148, 153-157: the exchange of neighbours *)
Definition cond_swap (l : list A) (i : nat) : res (list A) :=
  let* x := get l i in
  let* y := get l (i + 1) in
  let* b := exch x y in
  if b : bool then
    let* l := set l i y in
    set l (i + 1) x
  else Ok l.
(** order.c:177, 187: [k] exchanges from position [i] on *)
Fixpoint inner (k i : nat) (l : list A) : res (list A) :=
  match k with
  | O => Ok l
  | S k' => let* l := cond_swap l i in inner k' (i + 1) l
  end.
(** order.c:176, 186 *)
Fixpoint outer (j : nat) (l : list A) : res (list A) :=
  match j with
  | O => Ok l
  | S j' => let* l := inner (j - 1) 0 l in outer j' l
  end.
End Bubble.

(** order.c:170-197 [sort_strings_in_place] *)
Definition str_exch (o : order) (s t : list N) : res bool :=
  Ok (match o with Decreasing => (c_strcmp s t <? 0)%Z | Increasing => (0 <? c_strcmp s t)%Z end).
Definition sort_strings_in_place (arr : list (list N)) (o : order) : res (list (list N)) :=
  outer (str_exch o) (length arr) arr.
(** order.c:135-164 [sort_strings_using_index] *)
Definition ind_exch (o : order) (arr : list (list N)) (p q : nat) : res bool :=
  let* s := get arr p in
  let* t := get arr q in
  str_exch o s t.
Definition sort_strings_using_index (arr : list (list N)) (o : order) : res (list nat) :=
  outer (ind_exch o arr) (length arr) (seq 0 (length arr)).
