(** What a transcript with alternations denotes. *)
From Coq Require Import List ZArith Arith Bool Ascii String.
From Verif Require Import Base Graph_Model Links_Model Links_Spec Alt_Model.
Import ListNotations.

(** A transcript: alternatives of sequences of items; an item is a word, the empty word "@"
    or a group in braces. *)
Inductive item := IWord (w : string) | IEmpty | IGroup (a : alts)
with seqn := SNil | SCons (i : item) (s : seqn)
with alts := AOne (s : seqn) | AMore (s : seqn) (a : alts).

(** How it is written. *)
Fixpoint print_item (i : item) : list string :=
  match i with
  | IWord w => [w]
  | IEmpty => ["@"%string]
  | IGroup a => "{"%string :: print_alts a ++ ["}"%string]
  end
with print_seq (s : seqn) : list string :=
  match s with SNil => [] | SCons i r => print_item i ++ print_seq r end
with print_alts (a : alts) : list string :=
  match a with AOne s => print_seq s | AMore s r => print_seq s ++ "/"%string :: print_alts r end.

(** The word sequences it denotes. *)
Inductive says_item : item -> list string -> Prop :=
| says_word : forall w, says_item (IWord w) [w]
| says_empty : says_item IEmpty []
| says_group : forall a l, says_alts a l -> says_item (IGroup a) l
with says_seq : seqn -> list string -> Prop :=
| says_nil : says_seq SNil []
| says_cons : forall i s l1 l2, says_item i l1 -> says_seq s l2 -> says_seq (SCons i s) (l1 ++ l2)
with says_alts : alts -> list string -> Prop :=
| says_one : forall s l, says_seq s l -> says_alts (AOne s) l
| says_here : forall s a l, says_seq s l -> says_alts (AMore s a) l
| says_later : forall s a l, says_alts a l -> says_alts (AMore s a) l.

(** A word is none of the five special ones. *)
Definition plain (w : string) : Prop :=
  w <> EmptyString /\ w <> "{"%string /\ w <> "}"%string /\ w <> "/"%string /\ w <> "@"%string.

Fixpoint seq_len (s : seqn) : nat := match s with SNil => 0 | SCons _ r => S (seq_len r) end.

(** Words are plain, inside groups no sequence of two items or more can be empty, and no
    group is "{ / }". *)
Definition solid (s : seqn) : Prop := seq_len s <= 1 \/ ~ says_seq s [].
Fixpoint ok_item (i : item) : Prop :=
  match i with IWord w => plain w | IEmpty => True | IGroup a => a <> AMore SNil (AOne SNil) /\ ok_inner a end
with ok_seq (s : seqn) : Prop :=
  match s with SNil => True | SCons i r => ok_item i /\ ok_seq r end
with ok_inner (a : alts) : Prop :=
  match a with AOne s => solid s /\ ok_seq s | AMore s r => (solid s /\ ok_seq s) /\ ok_inner r end.
(** On the outermost level sequences that can be empty are allowed. *)
Fixpoint ok_line (a : alts) : Prop :=
  match a with AOne s => ok_seq s | AMore s r => ok_seq s /\ ok_line r end.

(** The state a parser starts from: links go forward between existing tokens. *)
Definition good (st : pstate) : Prop :=
  mutual (ps_links st) /\
  forall x y, edge (ps_links st) x y -> x < y < List.length (ps_toks st).

(** Word sequences spelled by a graph of tokens: along links from a first to a last token. *)
Fixpoint walk (h : links) (a : nat) (l : list nat) : Prop :=
  match l with [] => True | b :: r => edge h a b /\ walk h b r end.
Definition text_of (st : pstate) (t : nat) : string := at_text (nth t (ps_toks st) {| at_text := ""; at_start := 0; at_dur := 0; at_opt := false |}).
Definition spells (st : pstate) (firsts lasts : list nat) (w : list string) : Prop :=
  exists a l, In a firsts /\ walk (ps_links st) a l /\ In (List.last l a) lasts /\
    map (text_of st) (a :: l) = w.

(** Words of a line: as if every special character stood between spaces. *)
Definition lex (l : list ascii) : list string :=
  split_words (flat_map (fun c => if is_special c then [" "%char; c; " "%char] else [c]) l).

(** No word sequence is the beginning of another one. *)
Definition prefix_free (a : alts) : Prop :=
  forall w u, says_alts a w -> says_alts a (w ++ u) -> w <> [] -> u = [].
