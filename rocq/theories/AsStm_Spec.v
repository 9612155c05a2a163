(** What an STM file says. *)
From Coq Require Import String List NArith ZArith Arith Bool Ascii.
From Verif Require Import Base Store_Model Links_Model Alt_Model Alt_Spec AsTrn_Spec AsStm_Model.
Import ListNotations.

(** A text is words between blanks. *)
Definition blank (c : N) : Prop := c = 32%N \/ (9 <= c <= 13)%N.
Definition word (w : str) : Prop := w <> [] /\ Forall (fun c => ~ blank c) w.
Inductive spaced : str -> list str -> Prop :=
| sp_end : forall s, Forall blank s -> spaced s []
| sp_last : forall s w, Forall blank s -> word w -> spaced (s ++ w) [w]
| sp_more : forall s w c r ws, Forall blank s -> word w -> blank c -> spaced (c :: r) ws -> spaced (s ++ w ++ c :: r) (w :: ws).
(** Words fit the buffers. *)
Definition short (w : str) : Prop := List.length w < N.to_nat 255.

(** [p] is what is before the first place of [x] in [l]. *)
Definition first_place (p x l : str) : Prop :=
  (exists r, l = p ++ x ++ r) /\ forall q r, l = q ++ x ++ r -> List.length p <= List.length q.

(** A line of data: file, channel, speaker, beginning, end, label if any, words. *)
Record entry := { n_line : nat; n_src : str; n_chan : str; n_spkr : str; n_b : str; n_e : str; n_label : str; n_words : str }.
(** What is before the words: the fields, and the label in angle brackets if there is one. *)
Inductive data_line : str -> entry -> Prop :=
| dl_labelled : forall n p src chan spkr b e lab sixth more words,
    spaced p [src; chan; spkr; b; e] -> Forall short [src; chan; spkr; b; e; sixth] ->
    ~ In 60%N p -> ~ In 62%N p -> blank (last p 0%N) ->
    ~ In 62%N lab -> spaced ([60%N] ++ lab ++ [62%N] ++ words) (sixth :: more) ->
    data_line (p ++ [60%N] ++ lab ++ [62%N] ++ words)
      {| n_line := n; n_src := src; n_chan := chan; n_spkr := spkr; n_b := b; n_e := e; n_label := [60%N] ++ lab ++ [62%N]; n_words := words |}
| dl_plain : forall n p src chan spkr b m e words more,
    spaced p [src; chan; spkr] -> blank (last p 0%N) -> word b -> m <> [] -> Forall blank m -> word e ->
    (words = [] \/ blank (hd 0%N words)) -> spaced words more ->
    Forall short ([src; chan; spkr; b; e] ++ firstn 1 more) ->
    ~ In 60%N (p ++ b ++ m ++ e ++ words) ->
    first_place p b (p ++ b ++ m ++ e ++ words) -> first_place (tl b ++ m) e (tl b ++ m ++ e ++ words) ->
    data_line (p ++ b ++ m ++ e ++ words)
      {| n_line := n; n_src := src; n_chan := chan; n_spkr := spkr; n_b := b; n_e := e; n_label := []; n_words := words |}.

(** Lower case, byte for byte *)
Definition low (c d : N) : Prop := if ((65 <=? c) && (c <=? 90))%N then d = (c + 32)%N else d = c.
Definition ignoring_case (s t : str) : Prop := Forall2 low s t.
(** The words ask not to score the segment. *)
Definition excluded (words : str) : Prop :=
  exists x m y, words = x ++ m ++ y /\ ignoring_case m (bytes "ignore_time_segment_in_scoring").
(** The speaker: the gap between segments is written in any case. *)
Definition named (spkr s : str) : Prop :=
  (ignoring_case spkr (bytes "inter_segment_gap") /\ s = bytes "inter_segment_gap")
  \/ (~ ignoring_case spkr (bytes "inter_segment_gap") /\ s = spkr).

(** [;; CATEGORY "id" "title" "description"], each of one word *)
Definition quoted (s : str) : str := [34%N] ++ s ++ [34%N].
Definition one_word (s : str) : Prop := Forall (fun c => c <> 34%N /\ ~ blank c) s.
Definition cat_line (l : str) (c : cat) : Prop :=
  hd 0%N l = 59%N
  /\ (exists w0, spaced l [w0; k_type c; quoted (k_id c); quoted (k_title c); quoted (k_desc c)])
  /\ (k_type c = bytes "CATEGORY" \/ k_type c = bytes "LABEL") /\ k_id c <> []
  /\ one_word (k_id c) /\ one_word (k_title c) /\ one_word (k_desc c) /\ Forall (fun c => c <> 11%N /\ c <> 12%N) l.
(** Any other comment has no quotation mark. *)
Definition other_comment (l : str) : Prop := hd 0%N l = 59%N /\ ~ In 34%N l.

(** The lines of a file, the first of them with number [n] *)
Inductive says_file : nat -> list str -> list entry -> list cat -> Prop :=
| sf_end : forall n, says_file n [] [] []
| sf_cat : forall n l ls c us cs, cat_line l c -> says_file (S n) ls us cs -> says_file n (l :: ls) us (c :: cs)
| sf_comment : forall n l ls us cs, other_comment l -> says_file (S n) ls us cs -> says_file n (l :: ls) us cs
| sf_data : forall n l ls q us cs, hd 0%N l <> 59%N -> data_line l q -> n_line q = n -> says_file (S n) ls us cs ->
    says_file n (l :: ls) (q :: us) cs.

(** An entry understood: the name of its speaker, whether it is excluded, and if not its transcript
    as in C20. *)
Record item := { i_entry : entry; i_name : str; i_excl : bool; i_alts : alts }.
Definition understood (fuel : nat) (q : entry) (i : item) : Prop :=
  i_entry i = q /\ named (n_spkr q) (i_name i) /\ (i_excl i = true <-> excluded (n_words q))
  /\ (i_excl i = false -> lex (map ascii_of_N (n_words q)) = print_alts (i_alts i) /\ ok_line (i_alts i) /\ List.length (print_alts (i_alts i)) < fuel).

(** A number in decimal digits, at least three of them *)
Definition digit (c : N) : Prop := (48 <= c <= 57)%N.
Definition value (s : str) : N := fold_left (fun a c => a * 10 + (c - 48))%N s 0%N.
Definition decimal3 (n : N) (s : str) : Prop :=
  Forall digit s /\ value s = n /\ 3 <= List.length s /\ (3 < List.length s -> hd 0%N s <> 48%N).

(** The items with those before them *)
Fixpoint in_turn (before is : list item) : list (list item * item) :=
  match is with [] => [] | i :: r => (before, i) :: in_turn (before ++ [i]) r end.
(** Those of one speaker *)
Definition of_name (s : str) (l : list (list item * item)) : list (list item * item) := filter (fun x => str_eqb (i_name (snd x)) s) l.
(** How many of the items are scored *)
Definition scored (l : list item) : nat := List.length (filter (fun i => negb (i_excl i)) l).
Definition scored_of (s : str) (l : list item) : nat := scored (filter (fun i => str_eqb (i_name i) s) l).

(** The segment of an item: fields, line, label; its number among the scored ones of the file and,
    in the id, among those of the speaker; its graph spells the transcript. *)
Definition segment_of (ms : str -> Z) (st : pstate) (z : list item * item) (x : sseg) : Prop :=
  let (pre, i) := z in
  let q := i_entry i in
  s_src x = n_src q /\ s_chan x = n_chan q /\ s_spkr x = i_name i /\ s_start x = ms (n_b q) /\ s_end x = ms (n_e q)
  /\ s_line x = n_line q /\ s_label x = n_label q /\ s_excl x = i_excl i
  /\ (if i_excl i then s_first x = [] /\ s_last x = [] /\ s_elem x = (Z.of_nat (scored pre) - 1)%Z
      else s_elem x = Z.of_nat (scored pre)
        /\ (exists d, decimal3 (N.of_nat (scored_of (i_name i) pre) mod 2 ^ 64) d /\ s_id x = [40%N] ++ i_name i ++ [45%N] ++ d ++ [41%N])
        /\ forall w, spells st (s_first x) (s_last x) w <-> w <> [] /\ says_alts (i_alts i) w).

(** The segments of a speech that have tokens *)
Definition speaks (x : sseg) : bool := match s_first x, s_last x with _ :: _, _ :: _ => true | _, _ => false end.
