(** What the text filter does with a file. *)
From Coq Require Import List NArith Arith.
From Verif Require Import Rfilter_Model Rfilter_Spec.
Import ListNotations.

(** the lines of a file, with their newlines; the last may have none *)
Inductive lines : text -> list text -> Prop :=
| lines_none : lines [] []
| lines_last l : l <> [] -> ~ In 10%N l -> lines l [l]
| lines_more l rest ls : ~ In 10%N l -> lines rest ls -> lines (l ++ 10%N :: rest) ((l ++ [10%N]) :: ls).
(** lines shorter than this fit *)
Definition record_size : nat := N.to_nat 100000.
(** no text is behind a zero byte *)
Definition plain (f : text) : Prop := ~ In 0%N f.
(** every line by itself is rewritten by the rules *)
Definition rewritten (cs copy : bool) (rs : list rule) : list text -> list text -> Prop :=
  Forall2 (fun l out => exists used, rewrites cs copy rs [] l out used).
(** the left hand side of no rule occurs in a text *)
Definition untouched (cs : bool) (rs : list rule) (f : text) : Prop :=
  forall r a m b, In r rs -> f = a ++ m ++ b -> m <> [] -> ~ Forall2 (alike cs) m (sin r).
