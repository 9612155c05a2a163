(** What an RTTM file says when it is read word by word. *)
From Coq Require Import String List NArith ZArith Arith Bool Ascii.
From Verif Require Import Base Store_Model Links_Model Links_Spec Alt_Model Alt_Spec AsTrn_Spec AsStm_Spec Rttm_Model Rttm_Spec.
Import ListNotations.

(** The words of the lines from number [n] on; all other lines are skipped. *)
Inductive words_say : nat -> list str -> list lexeme -> Prop :=
| wy_end : forall n, words_say n [] []
| wy_word : forall n l ls g gs, line_says n l (EWord g) -> words_say (S n) ls gs -> words_say n (l :: ls) (g :: gs)
| wy_none : forall n l ls gs, ~ headed "LEXEME" l \/ line_says n l ENone -> words_say (S n) ls gs -> words_say n (l :: ls) gs.

(** The texts a word can be read as: it is a transcript with alternatives (C20), underscores and number
    signs being blanks; each of its parts can be left out if the word need not be said. *)
Definition lexeme_reads (g : lexeme) (p : list string) : Prop :=
  exists a x opt, as_line (map ascii_of_N (g_word g)) = print_alts a /\ ok_line a /\ says_alts a x /\ x <> []
    /\ (opt = true <-> optional_type (g_type g)) /\ p = map (in_parens opt) x.
(** A word that is read: without a quotation mark, and with well-formed alternatives *)
Definition understandable (ms : str -> Z) (fuel : nat) (g : lexeme) : Prop :=
  ~ In 34%N (g_word g) /\ (0 <= ms (g_d g))%Z /\ exists a, as_line (map ascii_of_N (g_word g)) = print_alts a /\ ok_line a /\ List.length (print_alts a) < fuel.

(** The words of a speaker, with their numbers among all words *)
Fixpoint of_speaker (s : str) (i : nat) (gs : list lexeme) : list (nat * lexeme) :=
  match gs with
  | [] => []
  | g :: r => if list_eq_dec N.eq_dec (g_spkr g) s then (i, g) :: of_speaker s (S i) r else of_speaker s (S i) r
  end.
Definition without_confidence (g : lexeme) : Prop := g_conf g = bytes "<NA>".
(** Word number [k] of a speaker as a segment, among the words [gs]: its confidence is kept if neither it
    nor a word before it is without one. *)
Definition lexeme_segment (ms : str -> Z) (st : pstate) (gs : list lexeme) (k : nat) (z : nat * lexeme) (y : rseg) : Prop :=
  let (i, g) := z in
  r_src y = g_src g /\ r_chan y = g_chan g /\ r_spkr y = g_spkr g /\ r_line y = g_line g /\ r_elem y = i
  /\ sg_begin (r_seg y) = ms (g_b g) /\ sg_end (r_seg y) = (ms (g_b g) + ms (g_d g))%Z
  /\ (exists d, decimal3 (N.of_nat k mod 2 ^ 64) d /\ r_id y = [40%N] ++ g_spkr g ++ [45%N] ++ d ++ [41%N])
  /\ ((Exists without_confidence (firstn (S i) gs) /\ r_conf y = None) \/ (~ Exists without_confidence (firstn (S i) gs) /\ r_conf y = Some (g_conf g)))
  /\ (forall w, reads st (sg_first (r_seg y)) (sg_last (r_seg y)) w <-> lexeme_reads g w).
Inductive lexeme_segments (ms : str -> Z) (st : pstate) (gs : list lexeme) : nat -> list (nat * lexeme) -> list rseg -> Prop :=
| lx_end : forall k, lexeme_segments ms st gs k [] []
| lx_more : forall k z zs y ys, lexeme_segment ms st gs k z y -> lexeme_segments ms st gs (S k) zs ys -> lexeme_segments ms st gs k (z :: zs) (y :: ys).
