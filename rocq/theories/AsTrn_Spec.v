(** Transcripts and their utterances. *)
From Coq Require Import List NArith Arith Bool Ascii.
From Verif Require Import Base Store_Model Segm_Model Alt_Model Alt_Spec AsTrn_Model.
Import ListNotations.

(** The lines of a file; the last one may lack its newline. *)
Definition file_lines (file : str) (ls : list str) : Prop :=
  Forall (fun l => ~ In 10%N l) ls /\
  (file = concat (map (fun l => l ++ [10%N]) ls) \/
   exists ls' l, ls = ls' ++ [l] /\ l <> [] /\ file = concat (map (fun l => l ++ [10%N]) ls') ++ l).

(** "words (uid)" *)
Definition utterance (line words uid : str) : Prop :=
  exists rest, line = words ++ [40%N] ++ uid ++ [41%N] ++ rest
    /\ Forall (fun c => c <> 40%N /\ c <> 41%N) uid /\ Forall (fun c => c <> 40%N /\ c <> 41%N) rest.
(** The speaker of an id: what is before its last underscore or hyphen. *)
Definition mark (c : N) : Prop := c = 95%N \/ c = 45%N.
Definition speaker (uid s : str) : Prop :=
  (exists c t, uid = s ++ c :: t /\ mark c /\ Forall (fun c => ~ mark c) t) \/ (Forall (fun c => ~ mark c) uid /\ s = uid).

(** What the lines say, the first of them with number [n]: the number of the line, words, id, speaker. *)
Record utt := { q_line : nat; q_words : str; q_uid : str; q_spkr : str }.
Inductive describes : nat -> list str -> list utt -> Prop :=
| d_end : forall n, describes n [] []
| d_comment : forall n l ls us, hd 0%N l = 59%N -> describes (S n) ls us -> describes n (l :: ls) us
| d_line : forall n l w u s ls us, hd 0%N l <> 59%N -> utterance l w u -> speaker u s -> describes (S n) ls us ->
    describes n (l :: ls) ({| q_line := n; q_words := w; q_uid := u; q_spkr := s |} :: us).

(** The words of an utterance are the transcript [a], as in C20. *)
Definition transcript (fuel : nat) (q : utt) (a : alts) : Prop :=
  lex (map ascii_of_N (q_words q)) = print_alts a /\ ok_line a /\ List.length (print_alts a) < fuel.
(** The segment of the [i]-th utterance: its graph spells what the transcript denotes. *)
Definition segment_of (st : pstate) (i : nat) (q : utt) (a : alts) (x : useg) : Prop :=
  u_id x = [40%N] ++ q_uid q ++ [41%N] /\ u_spkr x = q_spkr q /\ u_line x = q_line q /\ u_elem x = i
  /\ forall w, spells st (vs_start (u_graph x)) (vs_end (u_graph x)) w <-> w <> [] /\ says_alts a w.

(** Byte order. *)
Inductive before : str -> str -> Prop :=
| bf_end : forall b t, before [] (b :: t)
| bf_byte : forall a s b t, (a < b)%N -> before (a :: s) (b :: t)
| bf_next : forall a s t, before s t -> before (a :: s) (a :: t).

(** [x] is the first of [l] with the id. *)
Definition first_with (id : str) (l : list useg) (x : useg) : Prop :=
  exists a b, l = a ++ x :: b /\ u_id x = id /\ Forall (fun y => u_id y <> id) a.

(** The utterances with their transcripts and numbers, from [i] on. *)
Fixpoint numbered (i : nat) (us : list utt) (als : list alts) : list (nat * utt * alts) :=
  match us, als with q :: us, a :: als => (i, q, a) :: numbered (S i) us als | _, _ => [] end.
(** Those of one speaker. *)
Definition of_speaker (s : str) (l : list (nat * utt * alts)) : list (nat * utt * alts) := filter (fun x => str_eqb (q_spkr (snd (fst x))) s) l.
Definition is_for (st : pstate) (z : nat * utt * alts) (x : useg) : Prop := segment_of st (fst (fst z)) (snd (fst z)) (snd z) x.

(** The group of an id: the first reference and the first hypothesis with it. *)
Definition paired (refs hyps : list (list useg)) (id : str) (g : list useg * list useg) : Prop :=
  exists r h, g = ([r], [h]) /\ first_with id (concat refs) r /\ first_with id (concat hyps) h.
