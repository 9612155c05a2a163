(** The characters of words. *)
From Coq Require Import List NArith ZArith Arith Bool.
From Verif Require Import Text_Model Text_Spec Case_Model Word_Model Anet_Model Anet_Spec Sep_Spec.
Import ListNotations.

(** Neighbours that are not to be apart stay together. *)
Fixpoint runs (e : enc) (no_ascii : bool) (us : list (list N)) : list (list (list N)) :=
  match us with
  | [] => []
  | x :: r =>
      match runs e no_ascii r with
      | (y :: g) :: gs => if apart e no_ascii x y then [x] :: (y :: g) :: gs else (x :: y :: g) :: gs
      | _ => [[x]]
      end
  end.
(** The text of a word that is compared: an optional word is "(text)". *)
Definition text_of (w : word) : list N :=
  if w_opt_del w then match w_intern w with Some s => s | None => [] end else w_value w.
(** The pieces of a word: what is separated by blanks. *)
Definition pieces (e : enc) (p : profile) (no_ascii del_hyphen : bool) (t : list N) (ps : list (list N)) : Prop :=
  exists cs us, chars_of e t cs /\ units p cs us /\ ps = map (@concat N) (runs e no_ascii (kept del_hyphen us)).

(** A star at the end of more than one byte is not part of a word's text. *)
Definition starless (t : list N) : list N :=
  match t with _ :: _ :: _ => if (last t 0 =? 42)%N then removelast t else t | _ => t end.
(** The [i]-th word made of [w]: all last [d] and come one after the other. *)
Definition piece_word (w : word) (d : Z) (i : nat) (t : list N) : word :=
  let b := (w_t1 w + Z.of_nat i * d)%Z in
  {| w_value := if w_opt_del w then 40%N :: starless t ++ [41%N] else starless t;
     w_intern := if w_opt_del w then Some (starless t) else None;
     w_opt_del := w_opt_del w; w_frag := false;
     w_t1 := b; w_t2 := (b + d)%Z; w_dur := d; w_weight := (-1000)%Z |}.
Fixpoint piece_words (w : word) (d : Z) (i : nat) (ps : list (list N)) : list word :=
  match ps with [] => [] | t :: r => piece_word w d i t :: piece_words w d (S i) r end.
(** What a word becomes: a word of one byte, and one that is a single piece, stay as they are. *)
Definition spelled (e : enc) (p : profile) (no_ascii del_hyphen : bool) (share : Z -> nat -> Z) (w : word) (ws : list word) : Prop :=
  if Nat.leb (length (w_value w)) 1 then ws = [w]
  else exists ps, pieces e p no_ascii del_hyphen (text_of w) ps /\
         ws = if list_eq_dec (list_eq_dec N.eq_dec) ps [w_value w] then [w] else piece_words w (share (w_dur w) (length ps)) 0 ps.

(** The words the program can take: no blanks, no opening brace, no semicolon or backslash; not all
    hyphens, if these are dropped. *)
Definition letter (c : list N) : Prop := ordinary c /\ ~ space_char c /\ c <> [123%N].
Definition spellable (e : enc) (p : profile) (del_hyphen : bool) (w : word) : Prop :=
  length (w_value w) <= 1 \/
  (exists cs us, chars_of e (text_of w) cs /\ Forall letter cs /\ units p cs us /\ kept del_hyphen us <> [] /\ length (text_of w) < MAXSTRING
   /\ (w_opt_del w = true -> w_intern w = Some (text_of w) /\ w_value w = 40%N :: text_of w ++ [41%N])).

(** A word in parentheses is optional; its text is what is between them. *)
Definition decode (w : word) : word :=
  match w_value w with
  | b :: c :: r =>
      if ((b =? 40) && (last (c :: r) 0 =? 41))%N then
        {| w_value := w_value w; w_intern := Some (removelast (c :: r)); w_opt_del := true; w_frag := w_frag w;
           w_t1 := w_t1 w; w_t2 := w_t2 w; w_dur := w_dur w; w_weight := w_weight w |}
      else w
  | _ => w
  end.
Definition decoded (opt_del : bool) (w : word) : word := if opt_del then decode w else w.

(** A reading of a text in characters. *)
Definition reads_chars (e : enc) (p : profile) (no_ascii del_hyphen : bool) (share : Z -> nat -> Z) (cs : chars) (r : list word) : Prop :=
  exists r0 wss, reads e cs r0 /\ Forall2 (spelled e p no_ascii del_hyphen share) r0 wss /\ r = concat wss.
