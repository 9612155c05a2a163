(** Words and their comparison, independently of the code. *)
From Coq Require Import List Arith ZArith NArith Bool.
From Verif Require Import Text_Model Text_Spec Word_Model.
Import ListNotations.

(** the text of a word for comparisons: without the parentheses of an optional word *)
Definition text_is (w : word) (s : list N) : Prop :=
  (w_opt_del w = false /\ w_value w = s) \/ (w_opt_del w = true /\ w_intern w = Some s).

(** a word as the reader of transcripts makes them: its texts are not empty and well formed *)
Definition good_text (e : enc) (s : list N) : Prop := s <> [] /\ well_formed e s.
Definition good_word (e : enc) (w : word) : Prop :=
  well_formed e (w_value w) /\ exists s, text_is w s /\ good_text e s.

(** fragments: "-end" and "begin-" *)
Definition end_fragment (s x : list N) : Prop := s = 45%N :: x /\ x <> [].
Definition begin_fragment (s x : list N) : Prop :=
  s = x ++ [45%N] /\ x <> [] /\ forall y, ~ end_fragment s y.
Definition is_fragment (s : list N) : Prop :=
  exists x, end_fragment s x \/ begin_fragment s x.

(** [t] is a word the fragment [s] may be a part of *)
Definition completes (s t : list N) : Prop :=
  (exists x y, end_fragment s x /\ t = y ++ x) \/ (exists x y, begin_fragment s x /\ t = x ++ y).

(** the verdict on two texts, with fragment scoring on or off *)
Definition same_text (frag : bool) (s t : list N) : Prop :=
  if frag then
    (is_fragment s /\ completes s t)
    \/ (~ is_fragment s /\ is_fragment t /\ completes t s)
    \/ (~ is_fragment s /\ ~ is_fragment t /\ s = t)
  else s = t.

(** the null alternative *)
Definition null_word (w : word) : Prop := w_value w = [64%N].
