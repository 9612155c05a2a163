(** How a rule is written, independently of the program that reads it. *)
From Coq Require Import List NArith Arith.
From Verif Require Import Rfilter_Model.
Import ListNotations.

(** White space: blank, tab, newline, vertical tab, form feed and return. *)
Definition white (c : N) : Prop := In c [32; 9; 10; 11; 12; 13]%N.
Definition blanks (t : text) : Prop := Forall white t.
(** Neither the first nor the last character of [t] is white space. *)
Definition tight (t : text) : Prop := t <> [] /\ ~ white (hd 0%N t) /\ ~ white (last t 0%N).
Definition enclosed (o c : N) (t : text) : Prop := exists v, t = o :: v ++ [c].

(** A field: its value in brackets, in quotation marks, or as it is. *)
Inductive field : text -> text -> Prop :=
| in_brackets : forall v, field (91 :: v ++ [93])%N v
| in_quotes : forall v, field (34 :: v ++ [34])%N v
| plain : forall v, tight v -> ~ enclosed 91 93 v -> ~ enclosed 34 34 v -> v <> [34%N] -> field v v.
(** An optional field after some white space. *)
Inductive item : text -> text -> Prop :=
| no_item : item [] []
| an_item : forall sp f v, blanks sp -> sp <> [] -> field f v -> item (sp ++ f) v.

Definition arrow : text := [61; 62]%N.
Definition has_arrow (t : text) : Prop := exists a b, t = a ++ arrow ++ b.
(** In the text after a slash a bracket is opened before one is closed, or none is opened. *)
Definition opens (q : text) : Prop :=
  ~ In 91%N q \/ exists u v, q = u ++ 91%N :: v /\ ~ In 91%N u /\ ~ In 93%N u /\ In 93%N v.

(** A => B *)
Definition free_rule (l : text) (a b : text) : Prop :=
  exists sp0 f1 sp1 i2 sp2,
    l = sp0 ++ f1 ++ sp1 ++ arrow ++ i2 ++ sp2 /\ blanks sp0 /\ blanks sp1 /\ blanks sp2 /\
    field f1 a /\ item i2 b /\ ~ has_arrow f1 /\
    (~ In 47%N l \/ exists p q, l = p ++ 47%N :: q /\ ~ In 47%N q /\ ~ opens q).
(** A => B / C __ D *)
Definition context_rule (l : text) (a b c d : text) : Prop :=
  exists sp0 f1 sp1 i2 sp2 i3 sp3 slot i4 sp4,
    let q := i3 ++ sp3 ++ slot ++ i4 ++ sp4 in
    l = sp0 ++ f1 ++ sp1 ++ arrow ++ i2 ++ sp2 ++ [47%N] ++ q /\
    blanks sp0 /\ blanks sp1 /\ blanks sp2 /\ blanks sp3 /\ blanks sp4 /\
    field f1 a /\ item i2 b /\ item i3 c /\ item i4 d /\ ~ has_arrow f1 /\
    slot <> [] /\ Forall (eq 95%N) slot /\
    ~ In 47%N i3 /\ ~ In 47%N i4 /\ ~ In 95%N i3 /\ opens q.
