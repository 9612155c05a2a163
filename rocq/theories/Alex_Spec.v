(** What the lists of strings with their numbers of occurrences must show. *)
From Coq Require Import List Arith ZArith NArith Bool Sorted.
From Verif Require Import Text_Model Text_Spec Alex_Model.
Import ListNotations.
Local Open Scope nat_scope.

(** the dictionary order over any order of the letters *)
Inductive dictionary {A} (before : A -> A -> Prop) : list A -> list A -> Prop :=
| d_end y t : dictionary before [] (y :: t)
| d_here x y s t : before x y -> dictionary before (x :: s) (y :: t)
| d_next x s t : dictionary before s t -> dictionary before (x :: s) (x :: t).
(** characters: those with fewer bytes first, then by their bytes *)
Definition char_before (c d : list N) : Prop :=
  length c < length d \/ (length c = length d /\ dictionary N.lt c d).
(** strings: the dictionary order of their characters *)
Definition text_before (e : enc) (s t : list N) : Prop :=
  exists cs ds, chars_of e s cs /\ chars_of e t ds /\ dictionary char_before cs ds.

(** how often a string occurs in a list *)
Definition times (ws : list (list N)) (s : list N) : nat := count_occ (list_eq_dec N.eq_dec) ws s.

(** one line comes before another: it has more occurrences, or as many and its string comes first *)
Definition line_before (e : enc) (x y : nat * Z * list N) : Prop :=
  let '(_, n, s) := x in let '(_, m, t) := y in (m < n)%Z \/ (n = m /\ text_before e s t).

(** the list of the strings [ws]: every string that occurs once, with its number of occurrences, the most
    frequent first; how many they are; the sum of the occurrences; the lines are numbered from 1 *)
Record lists (e : enc) (ws : list (list N)) (r : listing) : Prop := {
  ls_total : li_total r = length (li_lines r);
  ls_often : li_often r = length (li_lines r);
  ls_sum : li_sum r = Z.of_nat (length ws);
  ls_each : forall w, In w ws <-> In w (map snd (li_lines r));
  ls_once : NoDup (map snd (li_lines r));
  ls_count : forall k n s, In (k, n, s) (li_lines r) -> n = Z.of_nat (times ws s);
  ls_order : StronglySorted (line_before e) (li_lines r);
  ls_number : map (fun x => fst (fst x)) (li_lines r) = seq 1 (length (li_lines r))
}.
(** the strings of the list in the order of their first occurrence *)
Fixpoint firsts (ws : list (list N)) : list (list N) :=
  match ws with
  | [] => []
  | w :: r => w :: filter (fun x => negb (if list_eq_dec N.eq_dec w x then true else false)) (firsts r)
  end.
