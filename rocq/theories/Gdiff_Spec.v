(** What the alignment by diff must give. *)
From Coq Require Import List Arith ZArith NArith Bool.
From Verif Require Import Base Text_Model Text_Spec Word_Model NetDp_Model.
Import ListNotations.
Local Open Scope nat_scope.

(** ** Texts *)
(** bytes that separate the words of a text *)
Definition blank (c : N) : Prop := (c = 32 \/ c = 9 \/ c = 10)%N.
(** bytes that separate the fields of a line of diff: also carriage return, vertical tab, form feed *)
Definition space (c : N) : Prop := (c = 32 \/ 9 <= c <= 13)%N.
(** a word: some bytes, no space of any kind, at most as many as diff shows in a column, no final
    star *)
Definition plain (e : enc) (w : list N) : Prop :=
  well_formed e w /\ w <> [] /\ Forall (fun c => ~ space c) w /\ length w <= 61 /\ last w 0%N <> 42%N.
(** the text is these words with blanks between them *)
Inductive spelled : list N -> list (list N) -> Prop :=
| spelled_end s : Forall blank s -> spelled s []
| spelled_last s w : Forall blank s -> spelled (s ++ w) [w]
| spelled_more s w c r ws : Forall blank s -> blank c -> spelled (c :: r) ws -> spelled (s ++ w ++ c :: r) (w :: ws).

(** A reference text: words, and choices { a b / c / d }.  The word @ stands for nothing. *)
Inductive item := Plain (w : list N) | Choice (first : list (list N)) (others : list (list (list N))).
Definition written (i : item) : list (list N) :=
  match i with
  | Plain w => [w]
  | Choice a os => [[123%N]] ++ a ++ flat_map (fun o => [47%N] :: o) os ++ [[125%N]]
  end.
(** the words that are to be aligned: of a choice the first alternative *)
Definition chosen (i : item) : list (list N) :=
  filter (fun w => if list_eq_dec N.eq_dec w [64%N] then false else true)
    (match i with Plain w => [w] | Choice a _ => a end).
Definition item_words (i : item) : list (list N) :=
  match i with Plain w => [w] | Choice a os => a ++ concat os end.
(** a word of the reference: not taken for a bracket, a bar or a mark of diff *)
Definition ref_word (e : enc) (w : list N) : Prop :=
  plain e w /\ ~ In (hd 0%N w) [123%N; 125%N; 47%N] /\ w <> [60%N] /\ w <> [62%N].
(** the reference text [t] asks for the words [ws] *)
Definition asks (e : enc) (t : list N) (ws : list (list N)) : Prop :=
  exists is, Forall (ref_word e) (flat_map item_words is)
    /\ spelled t (flat_map written is) /\ ws = flat_map chosen is.
(** a word of the hypothesis: not taken for a mark of diff *)
Definition hyp_word (e : enc) (w : list N) : Prop := plain e w /\ w <> [62%N].
Definition says (e : enc) (t : list N) (ws : list (list N)) : Prop := Forall (hyp_word e) ws /\ spelled t ws.

(** ** diff -y *)
Inductive move := Same (w : list N) | Gone (w : list N) | Extra (w : list N) | Other (a b : list N).
Definition ref_of (m : move) : list (list N) :=
  match m with Same w => [w] | Gone w => [w] | Extra _ => [] | Other a _ => [a] end.
Definition hyp_of (m : move) : list (list N) :=
  match m with Same w => [w] | Gone _ => [] | Extra w => [w] | Other _ b => [b] end.
(** some space, at least one byte *)
Definition gap (s : list N) : Prop := s <> [] /\ Forall space s.
(** how a move is shown: in two columns, with a mark between them unless the words are the same *)
Inductive shown : move -> list N -> Prop :=
| shown_same w s t : gap s -> Forall space t -> shown (Same w) (w ++ s ++ w ++ t)
| shown_gone w s t : gap s -> Forall space t -> shown (Gone w) (w ++ s ++ [60%N] ++ t)
| shown_extra w s s' t : Forall space s -> gap s' -> Forall space t -> shown (Extra w) (s ++ [62%N] ++ s' ++ w ++ t)
| shown_other a b s s' t : gap s -> gap s' -> Forall space t -> shown (Other a b) (a ++ s ++ [124%N] ++ s' ++ b ++ t).
(** what is asked of the program diff: its lines show moves that lead from one file to the other *)
Definition side_by_side (e : enc) (diff : list (list N) -> list (list N) -> list (list N)) : Prop :=
  forall rs hs, Forall (plain e) rs -> Forall (plain e) hs ->
  exists ms, flat_map ref_of ms = rs /\ flat_map hyp_of ms = hs /\ Forall2 shown ms (diff rs hs).

(** ** Alignments *)
(** a step of an alignment: the texts of the words and the judgement *)
Definition texts (s : step word) : option (list N) * option (list N) * eval :=
  match s with (a, b, ev) => (option_map w_value a, option_map w_value b, ev) end.
Definition judged (m : move) : option (list N) * option (list N) * eval :=
  match m with
  | Same w => (Some w, Some w, PCorr)
  | Gone w => (Some w, None, PDel)
  | Extra w => (None, Some w, PIns)
  | Other a b => (Some a, Some b, PSub)
  end.
Definition ref_side (s : step word) : list (list N) :=
  match s with (Some a, _, _) => [w_value a] | _ => [] end.
Definition ends_with_ref (p : list (step word)) : Prop :=
  p = [] \/ exists q s, p = q ++ [s] /\ ref_side s <> [].
(** The moves are dealt to the utterances: every utterance has the words of its reference, the
    alignments one after the other are the moves, and no alignment but the last ends with an inserted
    word. *)
Definition dealt (ms : list move) (refs : list (list (list N))) (ps : list (list (step word))) : Prop :=
  map texts (concat ps) = map judged ms
  /\ Forall2 (fun ws p => flat_map ref_side p = ws) refs ps
  /\ Forall ends_with_ref (removelast ps).

(** The lengths of the reference texts for which the copy is safe: [m] is the longest text so far (99 at
    first).  A text may not be exactly one byte longer than that, nor, at first, two. *)
Fixpoint lengths_fit (m : nat) (ns : list nat) : Prop :=
  match ns with
  | [] => True
  | n :: r => (n <= m /\ lengths_fit m r) \/ ((if m =? 99 then 102 else m + 2) <= n /\ lengths_fit n r)
  end.
