(** What a word weight file says. *)
From Coq Require Import String List NArith ZArith Arith Bool Permutation Sorted.
From Verif Require Import Base Text_Model Text_Spec Word_Model Store_Model Wwl_Model.
From Verif Require AsStm_Spec.
Import ListNotations.

(** A line is a comment when it begins with two semicolons. *)
Definition comment (l : str) : Prop := exists r, l = 59%N :: 59%N :: r.
(** [l] is [a], then the text [p] in any case, then [b]; no such place is further left. *)
Definition place (p a l b : str) : Prop :=
  (exists m, l = a ++ m ++ b /\ AsStm_Spec.ignoring_case m p)
  /\ forall a' m' b', l = a' ++ m' ++ b' -> AsStm_Spec.ignoring_case m' p -> (List.length a <= List.length a')%nat.
Definition absent (p l : str) : Prop := forall a m b, l = a ++ m ++ b -> ~ AsStm_Spec.ignoring_case m p.
(** Names in quotation marks, anything else between them *)
Inductive quoted : str -> list str -> Prop :=
| q_none r : ~ In 39%N r -> quoted r []
| q_name a d r ds : ~ In 39%N a -> ~ In 39%N d -> quoted r ds -> quoted (a ++ [39%N] ++ d ++ [39%N] ++ r) (d :: ds).
(** Fewer than two quotation marks *)
Definition unquoted (l : str) : Prop := ~ In 39%N l \/ exists a b, l = a ++ [39%N] ++ b /\ ~ In 39%N a /\ ~ In 39%N b.

(** A word with its weights, names of columns, a weight for the other words, or nothing *)
Inductive item := IWord (w : str) (ws : list str) | INames (ds : list str) | IDefault (d : str) | INothing.
Inductive line_says : str -> item -> Prop :=
| ls_blank l : Forall AsStm_Spec.blank l -> line_says l INothing
| ls_word l w ws : ~ comment l -> AsStm_Spec.spaced l (w :: ws) -> ws <> [] -> line_says l (IWord w (firstn 5 ws))
| ls_names l a b a' r ds : comment l -> place (bytes "'headings'") a l b -> place (bytes "'word spelling'") a' b r -> quoted r ds ->
    line_says l (INames ds)
| ls_no_spelling l a b : comment l -> place (bytes "'headings'") a l b -> absent (bytes "'word spelling'") b -> line_says l INothing
| ls_default l a b x d y : comment l -> absent (bytes "'headings'") l -> place (bytes "default missing weight") a l b ->
    l = x ++ [39%N] ++ d ++ [39%N] ++ y -> ~ In 39%N x -> ~ In 39%N d -> line_says l (IDefault d)
| ls_no_default l a b : comment l -> absent (bytes "'headings'") l -> place (bytes "default missing weight") a l b -> unquoted l ->
    line_says l INothing
| ls_comment l : comment l -> absent (bytes "'headings'") l -> absent (bytes "default missing weight") l -> line_says l INothing.

(** A line fits the buffer and has only proper characters. *)
Definition fits (e : enc) (l : str) : Prop :=
  well_formed e l /\ ((List.length l < N.to_nat 999)%nat \/ (List.length l = N.to_nat 999 /\ last l 0%N = 10%N)).

(** The words, the names and the default weight of a file *)
Fixpoint words_of (is : list item) : list (str * list str) :=
  match is with [] => [] | IWord w ws :: r => (w, ws) :: words_of r | _ :: r => words_of r end.
Fixpoint names_of (is : list item) : list str :=
  match is with [] => [] | INames ds :: r => ds ++ names_of r | _ :: r => names_of r end.
(** the last default weight, if any *)
Fixpoint default_of (is : list item) (d : option str) : option str :=
  match is with [] => d | IDefault x :: r => default_of r (Some x) | _ :: r => default_of r d end.
Definition default_weight (num : str -> Z) (is : list item) : Z :=
  match default_of is None with Some x => num x | None => 0%Z end.
(** the least number of weights of a word, of which there are at most nine *)
Definition least (words : list (str * list str)) : nat := fold_right (fun p m => Nat.min (List.length (snd p)) m) 9%nat words.

(** A sort by the comparison of texts, in any way among equal ones *)
Definition sorts (e : enc) (sort : list ww -> list ww) : Prop :=
  forall l, Forall (fun w => well_formed e (ww_str w)) l ->
    Permutation l (sort l)
    /\ Sorted (fun x y => exists z, strcmp e (cstr (ww_str x)) (cstr (ww_str y)) = Ok z /\ (z <= 0)%Z) (sort l).

(** The parts of a compound word between its "=" *)
Inductive parts : str -> list str -> Prop :=
| pt_end s : Forall (fun c => c = 61%N) s -> parts s []
| pt_part s p r ps : Forall (fun c => c = 61%N) s -> p <> [] -> ~ In 61%N p -> (r = [] \/ exists t, r = 61%N :: t) -> parts r ps ->
    parts (s ++ p ++ r) (p :: ps).

(** The weight of a word in a column of the file: a weight it is listed with, or the default *)
Definition listed (num : str -> Z) (is : list item) (k : nat) (w : str) (z : Z) : Prop :=
  (exists ws x, In (w, ws) (words_of is) /\ nth_error ws k = Some x /\ z = num x)
  \/ ((forall ws, ~ In (w, ws) (words_of is)) /\ z = default_weight num is).
Definition total (zs : list Z) : Z := fold_right Z.add 0%Z zs.
