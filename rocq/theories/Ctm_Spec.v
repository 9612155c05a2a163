(** What a CTM file with alternatives says. *)
From Coq Require Import String List ZArith NArith Arith Bool.
From Verif Require Import Base Store_Model Graph_Model Links_Model Links_Spec Ctm_Model.
Import ListNotations.

(** A word of a file: its fields. *)
Record entry := { e_src : str; e_chan : str; e_begin : str; e_dur : str; e_text : str; e_conf : option str }.
(** A file is a sequence of words and of groups of alternatives, each a sequence of words. *)
Inductive item := Word (e : entry) | Group (alts : list (list entry)).

(** The words of the lines that are no comments. *)
Definition data (file : list str) : list (list str) :=
  map line_words (filter (fun l => negb (is_comment l)) file).

(** All fields fit in the program's buffers. *)
Definition short (fields : list str) : Prop := Forall (fun w => List.length w < 255) (firstn 6 fields).

Definition is_tag (w : str) : Prop := w = ALT_BEGIN \/ w = ALT_END \/ w = ALT.

(** The line of a word has its fields and, without a confidence, no others. *)
Definition entry_line (l : list str) (e : entry) : Prop :=
  short l /\ ~ is_tag (e_text e) /\
  match e_conf e with
  | None => l = [e_src e; e_chan e; e_begin e; e_dur e; e_text e]
  | Some c => exists more, l = e_src e :: e_chan e :: e_begin e :: e_dur e :: e_text e :: c :: more
  end.
(** The line of a tag has it in the fifth field. *)
Definition tag_line (l : list str) (tag : str) : Prop :=
  short l /\ exists a b c d more, l = a :: b :: c :: d :: tag :: more.

Inductive alts_lines : list (list str) -> list (list entry) -> Prop :=
| alts_one : forall ls es, Forall2 entry_line ls es -> alts_lines ls [es]
| alts_more : forall ls es t rest alts, Forall2 entry_line ls es -> tag_line t ALT -> alts_lines rest alts ->
    alts_lines (ls ++ t :: rest) (es :: alts).

Inductive written : list (list str) -> list item -> Prop :=
| written_nil : written [] []
| written_word : forall l e ls its, entry_line l e -> written ls its -> written (l :: ls) (Word e :: its)
| written_group : forall b ls e alts rest its, tag_line b ALT_BEGIN -> alts_lines ls alts -> tag_line e ALT_END ->
    written rest its -> written (b :: ls ++ e :: rest) (Group alts :: its).

(** No alternative is empty. *)
Definition ok_item (i : item) : Prop := match i with Word _ => True | Group alts => Forall (fun a => a <> []) alts end.

(** In each group no alternative begins before the first one. *)
Definition in_order (ms : str -> Z) (i : item) : Prop :=
  match i with
  | Group ((x :: _) :: alts) => Forall (fun a => match a with y :: _ => (ms (e_begin x) <= ms (e_begin y))%Z | [] => True end) alts
  | _ => True
  end.

(** The alternatives of an item; all words of a file in their order. *)
Definition alts_of (i : item) : list (list entry) := match i with Word e => [[e]] | Group alts => alts end.
Definition entries (its : list item) : list entry := concat (concat (map alts_of its)).

(** The texts a file stands for: an alternative of each item, one after the other. *)
Inductive says : list item -> list str -> Prop :=
| says_nil : says [] []
| says_cons : forall i its a ws, In a (alts_of i) -> says its ws -> says (i :: its) (map e_text a ++ ws).

(** The words of a file, numbered in their order and grouped by item and alternative. *)
Fixpoint count_up {A} (n : nat) (l : list A) : list nat * nat :=
  match l with [] => ([], n) | _ :: r => let (x, m) := count_up (S n) r in (n :: x, m) end.
Fixpoint count_alts {A} (n : nat) (l : list (list A)) : list (list nat) * nat :=
  match l with [] => ([], n) | a :: r => let (x, m) := count_up n a in let (y, k) := count_alts m r in (x :: y, k) end.
Fixpoint count_items (n : nat) (l : list item) : list (list (list nat)) :=
  match l with [] => [] | i :: r => let (x, m) := count_alts n (alts_of i) in x :: count_items m r end.
Definition layout (its : list item) : list (list (list nat)) := count_items 0 its.

Definition heads (alts : list (list nat)) : list nat := map (hd 0) alts.
Definition lasts (alts : list (list nat)) : list nat := map (fun a => last a 0) alts.

(** [y] comes after [x]: in the same alternative, or at the begin of one of the next item. *)
Definition comes_after (L : list (list (list nat))) (x y : nat) : Prop :=
  (exists alts a l1 l2, In alts L /\ In a alts /\ a = l1 ++ x :: y :: l2) \/
  (exists L1 A B L2, L = L1 ++ A :: B :: L2 /\ In x (lasts A) /\ In y (heads B)).

(** Paths of tokens along the links, from a first token of the first segment to a last token of
    the last one, and what they spell. *)
Fixpoint walk (h : links) (a : nat) (l : list nat) : Prop :=
  match l with [] => True | b :: r => edge h a b /\ walk h b r end.
Definition spells (st : cst) (ws : list str) : Prop :=
  exists s1 s2 a l, hd_error (c_segs st) = Some s1 /\ nth_error (c_segs st) (List.length (c_segs st) - 1) = Some s2 /\
    In a (cs_first s1) /\ walk (c_links st) a l /\ In (last l a) (cs_last s2) /\
    map (fun t => option_map ct_text (nth_error (c_toks st) t)) (a :: l) = map Some ws.

(** The token of a word. *)
Definition token_of (ms : str -> Z) (e : entry) (t : ctok) : Prop :=
  ct_text t = e_text e /\ ct_start t = ms (e_begin e) /\ ct_end t = (ms (e_begin e) + ms (e_dur e))%Z /\ ct_conf t = e_conf e.

(** The segment of an item: source, channel and begin of its first word, the end of its last
    ending word. *)
Definition segment_of (ms : str -> Z) (i : item) (s : cseg) : Prop :=
  (forall e r alts, alts_of i = (e :: r) :: alts -> cs_src s = e_src e /\ cs_chan s = e_chan e /\ cs_start s = ms (e_begin e)) /\
  (forall e, In e (concat (alts_of i)) -> (ms (e_begin e) + ms (e_dur e) <= cs_end s)%Z) /\
  (exists e, In e (concat (alts_of i)) /\ (ms (e_begin e) + ms (e_dur e))%Z = cs_end s).

(** The item, by its number, that each word of a file is held to belong to: its own, but for a
    word that stands after a group, which counts with the group. *)
Fixpoint owners (k : nat) (after_group : bool) (its : list item) : list nat :=
  match its with
  | [] => []
  | Word _ :: r => (if after_group then k - 1 else k) :: owners (S k) false r
  | Group alts :: r => repeat k (List.length (concat alts)) ++ owners (S k) true r
  end.
Definition parents (its : list item) : list nat := owners 0 false its.

Definition is_group (i : item) : bool := match i with Group _ => true | Word _ => false end.

(** The fields of a line: its longest runs of characters that are no white space. *)
Definition white (c : N) : Prop := (c = 32 \/ 9 <= c <= 13)%N.
Inductive fields : str -> list str -> Prop :=
| fields_none : forall sp, Forall white sp -> fields sp []
| fields_one : forall sp w rest ws, Forall white sp -> w <> [] -> Forall (fun c => ~ white c) w ->
    match rest with [] => True | c :: _ => white c end -> fields rest ws -> fields (sp ++ w ++ rest) (w :: ws).
(** The fields of the lines; lines that begin with a semicolon are comments. *)
Inductive file_fields : list str -> list (list str) -> Prop :=
| ff_nil : file_fields [] []
| ff_comment : forall t file ds, file_fields file ds -> file_fields ((59%N :: t) :: file) ds
| ff_line : forall l file ws ds, (forall t, l <> 59%N :: t) -> fields l ws -> file_fields file ds -> file_fields (l :: file) (ws :: ds).
