(** The readings of a transcript with alternatives, independently of networks. *)
From Coq Require Import List NArith ZArith Arith Bool.
From Verif Require Import Base NetDp_Model Text_Model Text_Spec Word_Model Anet_Model.
Import ListNotations.

Definition chars := list (list N).
Definition is_space (c : list N) : bool :=
  match c with [b] => (b =? 32)%N || ((9 <=? b)%N && (b <=? 13)%N) | _ => false end.
(** What is between the slashes that are outside inner braces; [d] is the depth of the braces and
    [cur] what came since the last slash. *)
Fixpoint parts (d : Z) (cur cs : chars) : list chars :=
  match cs with
  | [] => [cur]
  | c :: r =>
      if list_eq_dec N.eq_dec c [47%N]
      then if (d <=? 0)%Z then cur :: parts d [] r else parts d (cur ++ [c]) r
      else parts (d + depth [c])%Z (cur ++ [c]) r
  end.
Fixpoint strip (cs : chars) : chars :=
  match cs with c :: r => if is_space c then strip r else cs | [] => [] end.
(** The alternatives: the parts that are not blank, without the spaces before them. *)
Definition alternatives (inner : chars) : list chars :=
  filter (fun p => match p with [] => false | _ => true end) (map strip (parts 0 [] inner)).
Definition braces (inner : chars) : chars := [123%N] :: inner ++ [[125%N]].

Section Readings.
Variable e : enc.
(** The word a token stands for: what [new_WORD_parseText] makes of it (see C41). *)
Definition stands_for (tok : chars) (w : word) : Prop :=
  exists p, parse_word e (cstr (concat tok)) = Ok p /\ w = word_of p.

(** A reading takes the words in turn and one alternative of each group. *)
Inductive reads : chars -> list word -> Prop :=
| rd_end : forall ws, Forall space_char ws -> reads ws []
| rd_word : forall ws tok rest w r, Forall space_char ws -> plain_word tok rest -> stands_for tok w ->
    reads rest r -> reads (ws ++ tok ++ rest) (w :: r)
| rd_alt : forall ws inner rest a r1 r2, Forall space_char ws -> group (braces inner) rest -> depth inner = 0%Z ->
    In a (alternatives inner) -> reads a r1 -> reads rest r2 ->
    reads (ws ++ braces inner ++ rest) (r1 ++ r2).

(** The texts the program can take: the tokens fit into its buffers, a word is made of every
    token, no word has a brace in it, every group is closed and has an alternative, and there
    are fewer than [n] groups inside each other. *)
Inductive proper : nat -> chars -> Prop :=
| pr_end : forall n ws, Forall space_char ws -> proper (S n) ws
| pr_word : forall n ws tok rest w, Forall space_char ws -> plain_word tok rest -> stands_for tok w ->
    length (concat tok) < MAXSTRING -> ~ In 123%N (w_value w) ->
    proper (S n) rest -> proper (S n) (ws ++ tok ++ rest)
| pr_alt : forall n ws inner rest, Forall space_char ws -> group (braces inner) rest -> depth inner = 0%Z ->
    length (concat (braces inner)) < MAXSTRING -> alternatives inner <> [] ->
    (forall a, In a (alternatives inner) -> proper n a) ->
    proper (S n) rest -> proper (S n) (ws ++ braces inner ++ rest).
End Readings.

(** * Alignments of readings *)

(** A word against a word, or against nothing. *)
Definition wpairing : Type := list (option word * option word).
Definition lefts (p : wpairing) : list word := flat_map (fun q => match fst q with Some w => [w] | None => [] end) p.
Definition rights (p : wpairing) : list word := flat_map (fun q => match snd q with Some w => [w] | None => [] end) p.
Definition pairs (p : wpairing) (r h : list word) : Prop := lefts p = r /\ rights p = h /\ ~ In (None, None) p.

Definition same_value (a b : word) : bool := if list_eq_dec N.eq_dec (w_value a) (w_value b) then true else false.
Definition is_null_word (a : word) : bool := if list_eq_dec N.eq_dec (w_value a) [64%N] then true else false.
(** The distances in thousandths: 4 for two different words and 3 for a word without partner; the
    null word "@" counts 0.001 without partner, and 1 against another null word. *)
Definition dist (q : option word * option word) : Z :=
  match q with
  | (Some a, Some b) => if same_value a b then (if is_null_word a then 1000 else 0) else 4000
  | (Some a, None) | (None, Some a) => if is_null_word a then 1 else 3000
  | (None, None) => 0
  end.
Definition total (p : wpairing) : Z := fold_right (fun q acc => (dist q + acc)%Z) 0%Z p.
(** Pairs of nulls only. *)
Definition only_nulls (q : option word * option word) : bool :=
  match q with
  | (Some a, Some b) => is_null_word a && is_null_word b
  | (Some a, None) | (None, Some a) => is_null_word a
  | (None, None) => true
  end.

(** What the path shows of a pair. *)
Definition shows (q : option word * option word) : step word :=
  match q with
  | (Some a, Some b) => (Some a, Some b, if same_value a b then PCorr else PSub)
  | (Some a, None) => (Some a, None, PDel)
  | (None, b) => (None, b, PIns)
  end.

(** Characters without meaning inside a word: no semicolon, backslash or byte of a longer
    character that looks like one. *)
Definition ordinary (c : list N) : Prop := high_multibyte c /\ ~ In 59%N c /\ ~ In 92%N c.
(** A text without one star at its end, unless it is nothing but that star. *)
Definition unstarred (s v : list N) : Prop :=
  (exists b r, s = b :: r ++ [42%N] /\ v = b :: r)
  \/ (v = s /\ ~ exists b r, s = b :: r ++ [42%N]).
