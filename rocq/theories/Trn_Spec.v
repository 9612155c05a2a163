(** Vocabulary of the properties of the scoring of transcripts by utterance ids. *)
From Coq Require Import List NArith ZArith Bool.
From Verif Require Import Base Chan_Model Read_Model Read_Spec Trn_Model.
Import ListNotations.

(** The lines of a file that hold an utterance: comments and blank lines hold none.  A last line
    without newline is not among them. *)
Inductive Utts : str -> list str -> Prop :=
| ul_nil : Utts [] []
| ul_skip l r ls : Line l r -> has_newline l -> stm_skips l -> Utts r ls -> Utts (l ++ r) ls
| ul_use l r ls : Line l r -> has_newline l -> ~ stm_skips l -> Utts r ls -> Utts (l ++ r) (l :: ls)
| ul_last l : Line l [] -> ~ has_newline l -> Utts l [].
(** A line, its text and its id: what is in the last parentheses. *)
Inductive Utterance : str -> str -> str -> Prop :=
| u_none l : ~ In 40%N l -> ~ In 41%N l -> Utterance l l []
| u_paren text x y : ~ In 40%N x -> ~ In 40%N y -> ~ In 41%N y ->
    Utterance (text ++ 40%N :: x ++ 41%N :: y) text (40%N :: x ++ [41%N]).
(** The texts and ids of a file. *)
Definition Transcripts (cs : bool) (bytes : str) (us : list (str * str)) : Prop :=
  exists ls, Utts bytes ls /\ Forall2 (fun l u => Utterance (cased cs l) (fst u) (snd u)) ls us.
(** The first text with an id. *)
Definition First (us : list (str * str)) (id t : str) : Prop :=
  exists a b, us = a ++ (t, id) :: b /\ ~ In id (map snd a).

(** The speaker of an utterance; [prev] that of the one before. *)
Definition speaker_of (idt : id_type) (id prev spk : str) : Prop :=
  match idt with
  | SP => spk = id
  | ATIS | WSJ => exists c r, id = c :: spk ++ r /\ (length spk = 3 \/ (length spk < 3 /\ r = []))%nat
  | RM | SPUID | SWB =>
      (exists c r, id = c :: spk ++ 45%N :: r /\ c <> 45%N /\ ~ In 45%N spk) \/
      (~ In 45%N id /\ exists c r, id = c :: spk ++ 95%N :: r /\ c <> 95%N /\ ~ In 95%N spk) \/
      (~ In 45%N id /\ ~ In 95%N id /\ spk = prev)
  end.
Inductive Speakers (idt : id_type) : str -> list str -> list str -> Prop :=
| sp_nil p : Speakers idt p [] []
| sp_cons p id s ids ss : speaker_of idt id p s -> Speakers idt s ids ss -> Speakers idt p (id :: ids) (s :: ss).

(** The references fit the hypotheses: no id is used twice by the hypotheses, each of their ids has
    a reference, and of a further reference with the same id the text begins that of the first. *)
Definition Fits (R H : list (str * str)) : Prop :=
  NoDup (map snd H) /\
  forall id, In id (map snd H) -> exists t, First R id t /\ forall t', In (t', id) R -> exists r, t = t' ++ r.
(** One record for each utterance of the hypothesis, in their order, with the first reference. *)
Definition Paired (R H : list (str * str)) (us : list utt) : Prop :=
  Forall2 (fun h u => u_id u = snd h /\ u_hyp u = fst h /\ First R (snd h) (u_ref u)) H us.
(** A speaker fits into the buffer of the program. *)
Definition short (s : str) : Prop := (length s < LOAD_BUFF_LEN)%nat.
