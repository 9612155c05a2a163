(** Upper and lower case, independently of the code in Case_Model.v; the tables of the language
    profiles are data. *)
From Coq Require Import List Arith ZArith NArith Bool.
From Verif Require Import Base Text_Model Text_Spec Case_Model.
Import ListNotations.
Local Open Scope N_scope.

(** [low = true]: from upper to lower case; a letter that changes, and what it becomes *)
Definition letter (low : bool) (a : N) : Prop := if low then 65 <= a <= 90 else 97 <= a <= 122.
Definition other (low : bool) (a : N) : N := if low then a + 32 else a - 32.
Definition case_letter (low : bool) (a b : N) : Prop := (letter low a /\ b = other low a) \/ (~ letter low a /\ b = a).
(** the letters of Latin-1; this includes the signs 215 and 247 *)
Definition high_letter (low : bool) (a : N) : Prop := if low then 192 <= a <= 223 else 224 <= a <= 255.
Definition case_latin (low : bool) (a b : N) : Prop :=
  (a < 128 /\ case_letter low a b)
  \/ (128 <= a /\ ((high_letter low a /\ b = other low a) \/ (~ high_letter low a /\ b = a))).
(** code points: the pairs of the profile come first *)
Definition pair_of (p : profile) (low : bool) (a b : N) : Prop := if low then In (a, b) (table p) else In (b, a) (table p).
Definition case_point (p : profile) (low : bool) (a b : N) : Prop :=
  pair_of p low a b \/ ((forall x, ~ pair_of p low a x) /\ case_letter low a b).

(** the character [d] is the character [c] in lower (upper) case *)
Definition case_of (e : enc) (p : profile) (low : bool) (c d : list N) : Prop :=
  match e with
  | ASCII => exists a b, c = [a] /\ d = [b] /\ case_letter low a b
  | EXTASCII => exists a b, c = [a] /\ d = [b] /\ case_latin low a b
  | GB => (exists a b, c = [a] /\ d = [b] /\ case_letter low a b) \/ (length c = 2%nat /\ d = c)
  | UTF8 => exists a b, utf8 a c /\ utf8 b d /\ case_point p low a b
  end.

(** characters; those of UTF-8 are as in RFC 3629 *)
Definition valid (e : enc) (c : list N) : Prop := is_char e c /\ (e = UTF8 -> exists a, utf8 a c).
(** the text of a block *)
Definition text_in (e : enc) (m : mem) (cs : list (list N)) : Prop := holds m (concat cs) /\ Forall (valid e) cs.

(** A buffer that was there before or is made for the text [first] is big enough to grow by half for
    the characters [all]. *)
Definition enough (static : option mem) (first all : list (list N)) : Prop :=
  match static with Some b => (8 <= length b)%nat | None => (7 <= length first)%nat end
  \/ (match static with Some b => (5 <= length b)%nat | None => True end /\ Forall (fun c => (length c <= 2)%nat) all).

(** conversions one after the other, each with the buffer the last one left *)
Fixpoint calls (e : enc) (p : profile) (junk : byte) (static : option mem) (qs : list (bool * mem)) : res (list mem) :=
  match qs with
  | [] => Ok []
  | (low, m) :: r =>
      match to_master e p junk low static m with
      | Ok out => match calls e p junk (Some out) r with Ok outs => Ok (out :: outs) | x => x end
      | Exit => Exit | Undef => Undef | NoFuel => NoFuel
      end
  end.
