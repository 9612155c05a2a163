(** What an RTTM file says. *)
From Coq Require Import String List NArith ZArith Arith Bool Ascii.
From Verif Require Import Base Store_Model Links_Model Links_Spec Token_Model Alt_Model Alt_Spec AsTrn_Spec AsStm_Spec Rttm_Model.
Import ListNotations.

(** A turn of a speaker, with the number of its line, and a word *)
Record turn := { t_line : nat; t_src : str; t_chan : str; t_b : str; t_d : str; t_spkr : str }.
Record lexeme := { g_line : nat; g_src : str; g_chan : str; g_b : str; g_d : str; g_word : str; g_type : str; g_spkr : str; g_conf : str }.
Inductive event := ETurn (q : turn) | EWord (g : lexeme) | ENone.

Definition is_type (names : list string) (ty : str) : Prop := exists n, In n names /\ ignoring_case ty (bytes n).
(** The types of words that are read *)
Definition word_type : str -> Prop := is_type ["lex"; "fp"; "frag"; "un-lex"; "for-lex"; "alpha"; "acronym"; "interjection"; "propernoun"]%string.
(** and those that need not be said *)
Definition optional_type : str -> Prop := is_type ["fp"; "frag"; "un-lex"; "for-lex"]%string.

Definition headed (p : string) (l : str) : Prop := exists r, l = bytes p ++ r.
(** What line [n] says.  Nine fields: type, file, channel, begin, duration, word, kind of word, speaker,
    confidence; a turn needs eight of them, and a tenth may follow. *)
Inductive line_says (n : nat) (l : str) : event -> Prop :=
| ls_turn : forall ty src chan b d x y spkr more,
    headed "SPEAKER" l -> spaced l ([ty; src; chan; b; d; x; y; spkr] ++ more) -> Forall short (firstn 9 ([ty; src; chan; b; d; x; y; spkr] ++ more)) ->
    line_says n l (ETurn {| t_line := n; t_src := src; t_chan := chan; t_b := b; t_d := d; t_spkr := spkr |})
| ls_word : forall ty src chan b d w k spkr conf more,
    headed "LEXEME" l -> spaced l ([ty; src; chan; b; d; w; k; spkr; conf] ++ more) -> Forall short (firstn 10 ([ty; src; chan; b; d; w; k; spkr; conf] ++ more)) ->
    word_type k ->
    line_says n l (EWord {| g_line := n; g_src := src; g_chan := chan; g_b := b; g_d := d; g_word := w; g_type := k; g_spkr := spkr; g_conf := conf |})
| ls_dropped : forall a k more, headed "LEXEME" l -> spaced l (a ++ k :: more) -> List.length a = 6 -> Forall short (firstn 10 (a ++ k :: more)) -> ~ word_type k ->
    line_says n l ENone
| ls_other : ~ headed "SPEAKER" l -> ~ headed "LEXEME" l -> line_says n l ENone.
Inductive lines_say : nat -> list str -> list event -> Prop :=
| lsy_end : forall n, lines_say n [] []
| lsy_more : forall n l ls e es, line_says n l e -> lines_say (S n) ls es -> lines_say n (l :: ls) (e :: es).

(** The turns of speaker [s]: a turn has the words of the speaker up to the speaker's next turn. *)
Fixpoint words_until (s : str) (es : list event) : list lexeme :=
  match es with
  | [] => []
  | ETurn q :: r => if list_eq_dec N.eq_dec (t_spkr q) s then [] else words_until s r
  | EWord g :: r => if list_eq_dec N.eq_dec (g_spkr g) s then g :: words_until s r else words_until s r
  | ENone :: r => words_until s r
  end.
Fixpoint turns (s : str) (es : list event) : list (turn * list lexeme) :=
  match es with
  | [] => []
  | ETurn q :: r => if list_eq_dec N.eq_dec (t_spkr q) s then (q, words_until s r) :: turns s r else turns s r
  | _ :: r => turns s r
  end.
(** The words in a turn, in the order of the file; [before] are the speakers that have had a turn. *)
Fixpoint said (before : list str) (es : list event) : list lexeme :=
  match es with
  | [] => []
  | ETurn q :: r => said (t_spkr q :: before) r
  | EWord g :: r => if in_dec (list_eq_dec N.eq_dec) (g_spkr g) before then g :: said before r else said before r
  | ENone :: r => said before r
  end.

(** A word as written: in parentheses if it need not be said *)
Definition written (g : lexeme) (s : list ascii) : Prop :=
  (optional_type (g_type g) /\ s = map ascii_of_N ([40%N] ++ g_word g ++ [41%N])) \/ (~ optional_type (g_type g) /\ s = map ascii_of_N (g_word g)).
(** A text with a brace or an underscore is read as a transcript (C20), underscores and number signs being
    blanks. *)
Definition expandable (s : list ascii) : Prop := (In "{"%char s \/ In "_"%char s) /\ (In "_"%char s \/ In "}"%char s).
Definition as_line (s : list ascii) : list string := lex (replace_char "#" " " (replace_char "_" " " s)).
Definition in_parens (opt : bool) (w : string) : string :=
  if opt then string_of_list_ascii (["("%char] ++ list_ascii_of_string w ++ [")"%char]) else w.
(** The texts a word can be read as.  The shown text and whether the word is optional are as in C54. *)
Inductive word_reads (o : options) (g : lexeme) : list string -> Prop :=
| wr_plain : forall s text tk, written g s -> get_text o (new_token s) = Ok (text, tk) -> ~ expandable text -> word_reads o g [string_of_list_ascii s]
| wr_alts : forall s text tk a x, written g s -> get_text o (new_token s) = Ok (text, tk) -> expandable text ->
    as_line text = print_alts a -> ok_line a -> says_alts a x -> x <> [] -> word_reads o g (map (in_parens (tk_opt tk)) x).
(** The alternatives of a word are well formed. *)
Definition readable (o : options) (fuel : nat) (g : lexeme) : Prop :=
  forall s text tk, written g s -> get_text o (new_token s) = Ok (text, tk) -> expandable text ->
    exists a, as_line text = print_alts a /\ ok_line a /\ List.length (print_alts a) < fuel.

(** Texts along the links from a first to a last token *)
Definition reads (st : pstate) (firsts lasts : list nat) (w : list string) : Prop :=
  exists a l, In a firsts /\ walk (ps_links st) a l /\ In (List.last l a) lasts
    /\ map (fun i => string_of_list_ascii (source (nth i (ps_toks st) no_tok))) (a :: l) = w.

(** The first word of a turn does not begin before it, the last one does not end after it. *)
Definition in_time (ms : str -> Z) (x : turn * list lexeme) : Prop :=
  let (q, ws) := x in
  match ws with [] => True | g :: r => ms (t_b q) <= ms (g_b g) /\ ms (g_b (last r g)) + ms (g_d (last r g)) <= ms (t_b q) + ms (t_d q) end%Z.

(** Turn number [k] of a speaker as a segment *)
Definition turn_segment (o : options) (ms : str -> Z) (st : pstate) (k : nat) (x : turn * list lexeme) (y : rseg) : Prop :=
  let (q, ws) := x in
  r_src y = t_src q /\ r_chan y = t_chan q /\ r_spkr y = t_spkr q /\ r_line y = t_line q /\ r_elem y = t_line q
  /\ sg_begin (r_seg y) = ms (t_b q) /\ sg_end (r_seg y) = (ms (t_b q) + ms (t_d q))%Z
  /\ (exists d, decimal3 (N.of_nat k mod 2 ^ 64) d /\ r_id y = [40%N] ++ t_spkr q ++ [45%N] ++ d ++ [41%N])
  /\ (ws = [] -> sg_first (r_seg y) = [] /\ sg_last (r_seg y) = [])
  /\ (ws <> [] -> forall w, reads st (sg_first (r_seg y)) (sg_last (r_seg y)) w <-> exists parts, Forall2 (word_reads o) ws parts /\ w = concat parts).
(** The turns as segments, numbered from [k] on *)
Inductive turn_segments (o : options) (ms : str -> Z) (st : pstate) : nat -> list (turn * list lexeme) -> list rseg -> Prop :=
| ts_end : forall k, turn_segments o ms st k [] []
| ts_more : forall k x xs y ys, turn_segment o ms st k x y -> turn_segments o ms st (S k) xs ys -> turn_segments o ms st k (x :: xs) (y :: ys).
