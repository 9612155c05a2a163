(** What the alignment of two time marked files does. *)
From Coq Require Import String List NArith ZArith Arith Bool Sorted.
From Verif Require Import Base Chan_Model Chop_Model.
Import ListNotations.
Local Open Scope Z_scope.

(** ** Files *)
(** A channel: its name and its words; a conversation: its name and its channels *)
Definition chan_ok (c : str) (a : str * list mword) : Prop :=
  snd a <> [] /\ Forall (fun w : mword => conv w = c /\ turn w = fst a) (snd a).
Definition conv_ok (v : str * list (str * list mword)) : Prop :=
  snd v <> [] /\ Forall (chan_ok (fst v)) (snd v) /\ Sorted (fun a b => fst a <> fst b) (snd v).
Definition all_words (vs : list (str * list (str * list mword))) : list mword := flat_map (fun v => flat_map snd (snd v)) vs.
(** The conversations of a file and their channels, as the words follow each other *)
Definition file_ok (f : list mword) (vs : list (str * list (str * list mword))) : Prop :=
  f = all_words vs /\ Forall conv_ok vs /\ Sorted (fun a b => fst a <> fst b) vs.
(** The file ends with a second channel of a single word. *)
Definition lone_end (vs : list (str * list (str * list mword))) : Prop :=
  exists us c a t w, vs = us ++ [(c, [a; (t, [w])])].
(** The channels of both files side by side: conversation, name in the reference, words of both *)
Definition channels (R H : list (str * list (str * list mword))) : list (str * str * list mword * list mword) :=
  flat_map (fun p => map (fun q => (fst (fst p), fst (fst q), snd (fst q), snd (snd q))) (combine (snd (fst p)) (snd (snd p)))) (combine R H).

(** ** Pieces *)
(** The pause after some words: from the end of the last one to the start of the next one *)
Definition pause_begin (l : list mword) (z : Z) : Prop := exists p w, l = p ++ [w] /\ z = t1 w + dur w.
Definition pause_end (l : list mword) (z : Z) : Prop := match l with [] => z = 999999990 | w :: _ => z = t1 w end.
(** There is a time in a pause of both, if the words next to the cut are in the order of time. *)
Definition common_pause (r r' h h' : list mword) : Prop :=
  exists r1 r2 h1 h2, pause_begin r r1 /\ pause_end r' r2 /\ pause_begin h h1 /\ pause_end h' h2
    /\ (r1 <= r2 -> h1 <= h2 -> exists t, r1 <= t <= r2 /\ h1 <= t <= h2).
(** A cut between the words [r] and [r'] of the reference and [h] and [h'] of the hypothesis: it is not after
    a word of an alternation of the reference, and it is in a pause of both unless a side has one word at most. *)
Definition good_cut (r r' h h' : list mword) : Prop :=
  r' ++ h' <> [] ->
  (forall p w, r = p ++ [w] -> alternate w = false)
  /\ ((length r <= 1)%nat \/ (length h <= 1)%nat \/ common_pause r r' h h').
(** A number in decimal digits, at least four of them *)
Definition number4 (k : nat) (s : str) : Prop :=
  Forall (fun c => 48 <= c <= 57)%N s /\ fold_left (fun a c => a * 10 + (c - 48))%N s 0%N = N.of_nat k
  /\ (4 <= length s)%nat /\ ((4 < length s)%nat -> hd 0%N s <> 48%N).
(** (conversation-channel-number) *)
Definition named (c t : str) (k : nat) (p : piece) : Prop :=
  p_file p = c /\ p_chan p = t /\ p_spkr p = c ++ [45%N] ++ t
  /\ exists d, number4 k d /\ p_id p = [40%N] ++ c ++ [45%N] ++ t ++ [45%N] ++ d ++ [41%N].
(** The words of a channel of both files are dealt out to the pieces in order; the pieces are numbered from
    [k]. *)
Inductive chunked (c t : str) : list mword -> list mword -> nat -> list piece -> Prop :=
| ch_end k : chunked c t [] [] k []
| ch_piece p r' h' k ps :
    p_ref p ++ p_hyp p <> [] ->
    (p_ref p ++ r' <> [] -> named c t k p) ->
    good_cut (p_ref p) r' (p_hyp p) h' ->
    chunked c t r' h' (S k) ps ->
    chunked c t (p_ref p ++ r') (p_hyp p ++ h') k (p :: ps).

(** The last channel has at most fifty words in both files. *)
Definition short_end (R H : list (str * list (str * list mword))) : Prop :=
  forall pre c t a b, channels R H = pre ++ [(c, t, a, b)] -> (length a <= 50)%nat /\ (length b <= 50)%nat.
(** The same conversations with as many channels *)
Definition in_step (R H : list (str * list (str * list mword))) : Prop :=
  Forall2 (fun r h => fst r = fst h /\ length (snd r) = length (snd h)) R H.
