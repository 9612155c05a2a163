(** What the edit distance, word equivalence and overlap of tokens should mean. *)
From Coq Require Import List ZArith Arith Ascii.
From Verif Require Import Token_Model.
Import ListNotations.

(** One character inserted, deleted or replaced, anywhere. *)
Inductive one_edit : text -> text -> Prop :=
| ed_insert : forall a c b, one_edit (a ++ b) (a ++ c :: b)
| ed_delete : forall a c b, one_edit (a ++ c :: b) (a ++ b)
| ed_replace : forall a c c' b, one_edit (a ++ c :: b) (a ++ c' :: b).

(** [k] edits one after the other. *)
Inductive edits : nat -> text -> text -> Prop :=
| edits_0 : forall s, edits 0 s s
| edits_S : forall k s u t, one_edit s u -> edits k u t -> edits (S k) s t.

Definition min_edits (s t : text) (k : nat) : Prop :=
  edits k s t /\ forall k', edits k' s t -> k <= k'.

Definition begins_with (h n : text) : Prop := exists r, h = n ++ r.
Definition ends_with (h n : text) : Prop := exists r, h = r ++ n.
Definition contains (h n : text) : Prop := exists a b, h = a ++ n ++ b.

(** The same word, given the fragment status of the two (already cleaned) texts. *)
Definition same_word (f1 f2 : fragment) (a b : text) : Prop :=
  match f1, f2 with
  | NOT_FRAGMENT, NOT_FRAGMENT => a = b
  | NOT_FRAGMENT, BEGIN_FRAGMENT => begins_with a b
  | NOT_FRAGMENT, END_FRAGMENT => ends_with a b
  | BEGIN_FRAGMENT, NOT_FRAGMENT => begins_with b a
  | END_FRAGMENT, NOT_FRAGMENT => ends_with b a
  | BEGIN_FRAGMENT, BEGIN_FRAGMENT => contains a b \/ contains b a
  | END_FRAGMENT, END_FRAGMENT => ends_with a b \/ ends_with b a
  | _, _ => False
  end.

(** Two closed intervals share an instant. *)
Definition share_instant (a b : timed) : Prop :=
  exists x, (to_start a <= x <= to_end a /\ to_start b <= x <= to_end b)%Z.

(** A source text: parentheses around when [wrapped], a dash in front when [pre], behind when
    [suf]. *)
Definition dash (b : bool) : text := if b then ["-"%char] else [].
Definition decorated (wrapped pre suf : bool) (core : text) : text :=
  let body := dash pre ++ core ++ dash suf in
  if wrapped then "("%char :: body ++ [")"%char] else body.

(** A word whose ends are not marks. *)
Definition plain_word (core : text) : Prop :=
  exists a z mid, core = a :: mid /\ last core a = z /\
    a <> "-"%char /\ a <> "("%char /\ z <> "-"%char /\ z <> ")"%char.

(** A text whose fragment status is settled by its own marks. *)
Definition expected_fragment (pre suf : bool) : fragment :=
  if suf then BEGIN_FRAGMENT else if pre then END_FRAGMENT else NOT_FRAGMENT.

(** [d] is the largest power of ten dividing both times. *)
Definition largest_common_power (a b d : Z) : Prop :=
  exists k, (0 <= k)%Z /\ d = (10 ^ k)%Z /\ (d | a)%Z /\ (d | b)%Z /\
    ~ ((10 * d | a)%Z /\ (10 * d | b)%Z).
