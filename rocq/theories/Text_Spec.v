(** What the strings of sclite are, independently of the code in Text_Model.v. *)
From Coq Require Import List Arith ZArith NArith Bool.
From Verif Require Import Text_Model.
Import ListNotations.
Local Open Scope N_scope.

(** the block [m] holds the string [s]: its bytes, none of them 0, then a 0, then anything *)
Definition holds (m : mem) (s : list byte) : Prop :=
  ~ In 0 s /\ exists junk, m = s ++ 0 :: junk.

(** one character of an encoding: the first byte tells how many bytes there are *)
Definition char_size (e : enc) (lead : byte) (k : nat) : Prop :=
  match e with
  | ASCII | EXTASCII => k = 1%nat
  | GB => (lead < 0x80 /\ k = 1%nat) \/ (0x80 <= lead /\ k = 2%nat)
  | UTF8 =>
      (lead < 0x80 /\ k = 1%nat)
      \/ (0xC0 <= lead <= 0xDF /\ k = 2%nat)
      \/ (0xE0 <= lead <= 0xEF /\ k = 3%nat)
      \/ (0xF0 <= lead <= 0xF7 /\ k = 4%nat)
      \/ (0xF8 <= lead <= 0xFB /\ k = 5%nat)
      \/ (0xFC <= lead <= 0xFD /\ k = 6%nat)
  end.

Definition is_char (e : enc) (c : list byte) : Prop :=
  exists lead rest, c = lead :: rest /\ char_size e lead (length c)
    /\ Forall (fun b => 0 < b < 256) c.

(** the characters [cs] are the characters of the string [s] *)
Definition chars_of (e : enc) (s : list byte) (cs : list (list byte)) : Prop :=
  s = concat cs /\ Forall (is_char e) cs.

Definition well_formed (e : enc) (s : list byte) : Prop := exists cs, chars_of e s cs.

(** UTF-8, from the table of RFC 3629 (the bits of the code point from the right: six to each
    continuation byte) *)
Inductive utf8 : N -> list byte -> Prop :=
| utf8_1 c : c < 2 ^ 7 -> utf8 c [c]
| utf8_2 a b : a < 2 ^ 5 -> b < 2 ^ 6 -> 2 ^ 7 <= a * 2 ^ 6 + b ->
    utf8 (a * 2 ^ 6 + b) [0xC0 + a; 0x80 + b]
| utf8_3 a b c : a < 2 ^ 4 -> b < 2 ^ 6 -> c < 2 ^ 6 -> 2 ^ 11 <= a * 2 ^ 12 + b * 2 ^ 6 + c ->
    utf8 (a * 2 ^ 12 + b * 2 ^ 6 + c) [0xE0 + a; 0x80 + b; 0x80 + c]
| utf8_4 a b c d : a < 2 ^ 3 -> b < 2 ^ 6 -> c < 2 ^ 6 -> d < 2 ^ 6 ->
    2 ^ 16 <= a * 2 ^ 18 + b * 2 ^ 12 + c * 2 ^ 6 + d ->
    a * 2 ^ 18 + b * 2 ^ 12 + c * 2 ^ 6 + d < 0x110000 ->
    utf8 (a * 2 ^ 18 + b * 2 ^ 12 + c * 2 ^ 6 + d) [0xF0 + a; 0x80 + b; 0x80 + c; 0x80 + d].

(** white space of the C locale *)
Definition space (b : byte) : Prop := b = 32 \/ b = 9 \/ b = 10 \/ b = 11 \/ b = 12 \/ b = 13.
(** a character is a white space *)
Definition space_char (c : list byte) : Prop := exists b, c = [b] /\ space b.

(** the depth of the braces after some characters *)
Fixpoint depth (cs : list (list byte)) : Z :=
  match cs with
  | [] => 0%Z
  | c :: cs' =>
      ((match c with [b] => if (b =? 123)%N then 1 else if (b =? 125)%N then -1 else 0 | _ => 0 end)
       + depth cs')%Z
  end.

(** the first line of a file, its newline included *)
Definition first_line (file line rest : list byte) : Prop :=
  file = line ++ rest
  /\ ((exists body, line = body ++ [10] /\ ~ In 10 body) \/ (rest = [] /\ ~ In 10 line)).

(** the lines of a file *)
Inductive lines_of : list byte -> list (list byte) -> Prop :=
| lines_nil : lines_of [] []
| lines_cons file line rest ls :
    file <> [] -> first_line file line rest -> lines_of rest ls -> lines_of file (line :: ls).

(** [tok] is the first token of the characters [tok ++ rest], that do not start with a space:
    a group in braces up to the brace that closes it, or to the end of the text when none does,
    or a maximal run of characters that are not spaces *)
Definition starts_with_space (cs : list (list byte)) : Prop :=
  exists c cs', cs = c :: cs' /\ space_char c.
Definition group (tok rest : list (list byte)) : Prop :=
  (exists tok', tok = [123] :: tok')
  /\ (forall p q, tok = p ++ q -> p <> [] -> q <> [] -> (0 < depth p)%Z)
  /\ (depth tok = 0%Z \/ (rest = [] /\ (0 < depth tok)%Z)).
Definition plain_word (tok rest : list (list byte)) : Prop :=
  tok <> [] /\ (forall tok', tok <> [123] :: tok')
  /\ Forall (fun c => ~ space_char c) tok
  /\ (rest = [] \/ starts_with_space rest).
Definition is_token (tok rest : list (list byte)) : Prop := group tok rest \/ plain_word tok rest.

(** a group that is never closed *)
Definition unclosed (tok : list (list byte)) : Prop := (0 < depth tok)%Z /\ exists t, tok = [123] :: t.

(** the text [cs] is made of the tokens [ts] separated by white space *)
Inductive tokenised : list (list byte) -> list (list (list byte)) -> Prop :=
| tk_end ws : Forall space_char ws -> tokenised ws []
| tk_cons ws tok rest ts : Forall space_char ws -> is_token tok rest -> tokenised rest ts ->
    tokenised (ws ++ tok ++ rest) (tok :: ts).

(** [piece] is the first alternative of [piece ++ rest]: it goes to the next slash or closing
    brace outside inner groups, or to the end *)
Definition ends_piece (d : Z) (cs : list (list byte)) : Prop :=
  cs = [] \/ ((d <= 0)%Z /\ exists cs', cs = [47] :: cs' \/ cs = [125] :: cs').
Definition is_piece (piece rest : list (list byte)) : Prop :=
  piece <> []
  /\ (forall p q, piece = p ++ q -> p <> [] -> q <> [] -> ~ ends_piece (depth p) (q ++ rest))
  /\ ends_piece (depth piece) rest.

(** every byte of a character of several bytes is at least 0x80 *)
Definition high_multibyte (c : list byte) : Prop := (1 < length c)%nat -> Forall (fun b => 0x80 <= b) c.

(** a field of a word that survives being written and read: no backslash, and no byte of a
    multi-byte character that could be mistaken for a separator *)
Definition plain_field (e : enc) (s : list byte) : Prop :=
  exists cs, chars_of e s cs /\ Forall high_multibyte cs /\ ~ In 92 s.
