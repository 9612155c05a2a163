(** Sorted arrays and mean ranks. *)
From Coq Require Import List Arith ZArith NArith QArith Bool Permutation Sorted.
From Verif Require Import Order_Model.
Import ListNotations.
Local Open Scope nat_scope.

(** [before o a b]: the value [a] comes before [b] in the order asked for *)
Definition before (o : order) (a b : Z) : Prop :=
  match o with Increasing => (a < b)%Z | Decreasing => (b < a)%Z end.
Definition not_after (o : order) (a b : Z) : Prop :=
  match o with Increasing => (a <= b)%Z | Decreasing => (b <= a)%Z end.

(** an index array sorts an array of values *)
Definition sorts (o : order) (arr : list Z) (ptr : list nat) : Prop :=
  Permutation ptr (seq 0 (length arr)) /\
  StronglySorted (fun p q => not_after o (nth p arr 0%Z) (nth q arr 0%Z)) ptr.

(** what the C standard says of qsort: given a comparison that is consistent on the elements, it
    leaves a permutation of them in an order the comparison agrees with *)
Definition consistent (cmp : nat -> nat -> Z) (l : list nat) : Prop :=
  (forall x y, In x l -> In y l -> (cmp x y < 0 <-> 0 < cmp y x)%Z) /\
  (forall x y z, In x l -> In y l -> In z l -> (cmp x y <= 0 -> cmp y z <= 0 -> cmp x z <= 0)%Z).
Definition qsort_contract (qsort : (nat -> nat -> Z) -> list nat -> list nat) : Prop :=
  forall cmp l, consistent cmp l ->
    Permutation (qsort cmp l) l /\ StronglySorted (fun x y => (cmp x y <= 0)%Z) (qsort cmp l).

(** how many values satisfy a test *)
Definition count (f : Z -> bool) (l : list Z) : nat := length (filter f l).
(** the mean of the ranks that a value takes up: the values before it come first, it shares the next
    ranks with the values equal to it *)
Definition before_b (o : order) (a b : Z) : bool :=
  match o with Increasing => (a <? b)%Z | Decreasing => (b <? a)%Z end.
Definition mean_rank (o : order) (arr : list Z) (x : Z) : Q :=
  let smaller := count (fun y => before_b o y x) arr in
  let equal := count (fun y => (y =? x)%Z) arr in
  (* the ranks taken up are smaller + 1, ..., smaller + equal *)
  (inject_Z (Z.of_nat (list_sum (map S (seq smaller equal)))) / inject_Z (Z.of_nat equal))%Q.

(** the dictionary order of strings by their bytes *)
Inductive lex_le : list N -> list N -> Prop :=
| lex_nil t : lex_le [] t
| lex_less a b s t : (a < b)%N -> lex_le (a :: s) (b :: t)
| lex_same a s t : lex_le s t -> lex_le (a :: s) (a :: t).
Definition str_not_after (o : order) (s t : list N) : Prop :=
  match o with Increasing => lex_le s t | Decreasing => lex_le t s end.
