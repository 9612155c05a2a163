(** Rewriting by a list of rules with contexts, independently of the program. *)
From Coq Require Import List NArith Arith.
From Verif Require Import Rfilter_Model.
Import ListNotations.

(** Two characters are the same, or differ only in the case of a letter. *)
Definition letter_pair (a b : N) : Prop := exists i, (i < 26)%N /\ a = (65 + i)%N /\ b = (97 + i)%N.
Definition alike (cs : bool) (a b : N) : Prop := a = b \/ (cs = false /\ (letter_pair a b \/ letter_pair b a)).

(** Rule [r] applies between [left] and [right], where it replaces [m]. *)
Definition applies (cs : bool) (r : rule) (left right m rest : text) : Prop :=
  right = m ++ rest /\ m <> [] /\ Forall2 (alike cs) m (sin r) /\
  (exists l0 lm, left = l0 ++ lm /\ Forall2 (alike cs) lm (lctx r)) /\
  (exists rm r0, rest = rm ++ r0 /\ Forall2 (alike cs) rm (rctx r)).

(** The output for [right] when [left] precedes it, with the numbers of the rules used: at every
    position the first rule of the list that applies; characters without one are copied, or
    dropped. *)
Inductive rewrites (cs copy : bool) (rs : list rule) : text -> text -> text -> list nat -> Prop :=
| R_end : forall left, rewrites cs copy rs left [] [] []
| R_rule : forall left right m rest r pre post out used,
    rs = pre ++ r :: post -> applies cs r left right m rest ->
    (forall q m' rest', In q pre -> ~ applies cs q left right m' rest') ->
    rewrites cs copy rs (left ++ m) rest out used ->
    rewrites cs copy rs left right (sout r ++ out) (S (length pre) :: used)
| R_char : forall left c rest out used,
    (forall q m' rest', In q rs -> ~ applies cs q left (c :: rest) m' rest') ->
    rewrites cs copy rs (left ++ [c]) rest out used ->
    rewrites cs copy rs left (c :: rest) (if copy then c :: out else out) used.

(** Wherever the left hand side of a rule occurs there is room for its left context. *)
Definition roomy (cs : bool) (rs : list rule) (line : text) : Prop :=
  forall r left m rest, In r rs -> line = left ++ m ++ rest -> m <> [] -> Forall2 (alike cs) m (sin r) ->
    length (lctx r) <= length left.
