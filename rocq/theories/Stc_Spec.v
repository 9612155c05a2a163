(** What the options of sc_stats say, without its parser. *)
From Coq Require Import String.
From Coq Require Import List ZArith NArith Arith Bool.
From Verif Require Import Sgml_Model Stc_Model.
Import ListNotations.
Local Open Scope list_scope.

(** ** The options *)
Inductive option_ := Alignments (l : list (list N)) | PipeIn | Level (v : list N) | Directory (v : list N) | Name (v : list N) | Description (v : list N) | Width (v : list N)
  | Verbose | UnifiedReport | Tests (l : list (list N)) | Reports (l : list (list N)) | Graphs (l : list (list N)) | Works.
Definition words (o : option_) : list (list N) :=
  match o with
  | Alignments l => B "-a" :: l
  | PipeIn => [B "-p"]
  | Level v => [B "-f"; v]
  | Directory v => [B "-O"; v]
  | Name v => [B "-n"; v]
  | Description v => [B "-e"; v]
  | Width v => [B "-l"; v]
  | Verbose => [B "-v"]
  | UnifiedReport => [B "-u"]
  | Tests l => B "-t" :: l
  | Reports l => B "-r" :: l
  | Graphs l => B "-g" :: l
  | Works => [B "-w"]
  end.
Definition no_dash (w : list N) : Prop := forall r, w <> 45%N :: r.
Definition usable (o : option_) : Prop :=
  match o with Alignments l | Tests l | Reports l | Graphs l => l <> [] /\ Forall no_dash l | _ => True end.
Definition alignments (l : list option_) : list (list N) := flat_map (fun o => match o with Alignments k => k | _ => [] end) l.
(** words that are not looked at: after an option that takes no more words, everything from a word that does not look like an
    option *)
Definition ignored (l : list option_) (tail : list (list N)) : Prop :=
  tail = [] \/ (exists k o, l = k ++ [o] /\ match o with Alignments _ | Tests _ | Reports _ | Graphs _ => False | _ => True end) /\ exists w r, tail = w :: r /\ no_dash w.
Definition option_words : list string := ["-a"; "-p"; "-f"; "-O"; "-n"; "-e"; "-l"; "-v"; "-u"; "-t"; "-r"; "-g"; "-w"]%string.

(** ** What they say *)
Inductive last_value {A} (f : option_ -> option A) : list option_ -> A -> Prop :=
| lv : forall l1 o l2 x, f o = Some x -> (forall p, In p l2 -> f p = None) -> last_value f (l1 ++ o :: l2) x.
Definition value {A} (f : option_ -> option A) (default : A) (l : list option_) (x : A) : Prop :=
  last_value f l x \/ (forall p, In p l -> f p = None) /\ x = default.
Definition name_of (o : option_) : option (list N) := match o with Name v => Some v | _ => None end.
Definition desc_of (o : option_) : option (list N) := match o with Description v => Some v | _ => None end.
Definition dir_of (o : option_) : option (option (list N)) := match o with Directory v => Some (Some v) | _ => None end.
Definition width_of (o : option_) : option Z := match o with Width v => Some (atoi v) | _ => None end.
(** Each mention of a name switches it; a choice that resets (None) puts it to [base] and starts again. *)
Fixpoint since {A} (l : list (option A)) : list A :=
  match l with
  | [] => []
  | Some x :: r => if existsb (fun y => match y with None => true | _ => false end) r then since r else x :: since r
  | None :: r => since r
  end.
Definition word_dec : forall a b : list N, {a = b} + {a <> b} := list_eq_dec N.eq_dec.
Definition switched (n : string) (base : bool) (l : list (option (list N))) : bool :=
  xorb (existsb (fun y => match y with None => true | _ => false end) l && base) (Nat.odd (count_occ word_dec (since l) (B n))).
Definition reset_at (n : string) (w : list N) : option (list N) := if word_dec w (B n) then None else Some w.
Definition test_mentions (l : list option_) : list (option (list N)) :=
  flat_map (fun o => match o with Tests k => map (reset_at "std4") k | Works => [None] | _ => [] end) l.
Definition rep_mentions (l : list option_) : list (option (list N)) := flat_map (fun o => match o with Reports k => map (reset_at "none") k | _ => [] end) l.
Definition graph_mentions (l : list option_) : list (option (list N)) := flat_map (fun o => match o with Graphs k => map Some k | Works => [None] | _ => [] end) l.
Definition test_name (t : test) : string := match t with TMcn => "mcn" | TMapsswe => "mapsswe" | TSign => "sign" | TWilc => "wilc" | TAnovar => "anovar" | TSeg => "mapsswe_seg" end%string.
Definition rep_name (r : rep) : string := match r with RSum => "sum" | RRsum => "rsum" | RLur => "lur" | REsum => "es" | RResum => "res" | RPrn => "prn" end%string.
Definition graph_name (g : graph) : string := match g with GRange => "range" | GGrange => "grange" | GGrange2 => "grange2" | GDet => "det" end%string.
Definition wants_test (l : list option_) (t : test) : bool := switched (test_name t) (match t with TMcn | TMapsswe | TSign | TWilc => true | _ => false end) (test_mentions l).
Definition wants_rep (l : list option_) (r : rep) : bool := switched (rep_name r) false (rep_mentions l).
Definition wants_graph (l : list option_) (g : graph) : bool := switched (graph_name g) (match g with GRange => true | _ => false end) (graph_mentions l).
Definition wants_unified (l : list option_) : Prop := In UnifiedReport l \/ In Works l.

(** ** What is done *)
(** the root of the files: the name, in the directory if there is one; "-" is the standard output *)
Inductive root_of (l : list option_) : list N -> Prop :=
| r_out : value name_of (B "Ensemble") l (B "-") -> root_of l (B "-")
| r_dir : forall n d, value name_of (B "Ensemble") l n -> n <> B "-" -> value dir_of None l (Some d) -> root_of l (d ++ 47%N :: n)
| r_here : forall n, value name_of (B "Ensemble") l n -> n <> B "-" -> value dir_of None l None -> root_of l n.
Definition file_of (root : list N) (x : string) (f : list N) : Prop := root = B "-" /\ f = B "-" \/ root <> B "-" /\ f = root ++ 46%N :: B x.
(** the parts of a run *)
Inductive test_done (l : list option_) (root d : list N) : test -> event -> Prop :=
| td_seg : test_done l root d TSeg (Segments d)
| td : forall t matrix verbose f, t <> TSeg -> (matrix = true <-> ~ wants_unified l) -> (verbose = true <-> In Verbose l) -> file_of root "stats" f ->
    test_done l root d t (Test t (B "E") matrix verbose d f).
Inductive graph_done (root d : list N) : graph -> event -> Prop :=
| gd : forall g f, g <> GDet -> file_of root (graph_name g) f -> graph_done root d g (Graph g (B "E") d f)
| gd_det : graph_done root d GDet (Graph GDet (B "E") d root).
Inductive rep_done (l : list option_) (root d : list N) : rep -> event -> Prop :=
| rd_prn : forall z, value width_of 100%Z l z -> rep_done l root d RPrn (Report RPrn [] root (Some z))
| rd : forall r, r <> RPrn -> rep_done l root d r (Report r d root None).
Definition unified_done (l : list option_) (root d : list N) (ev : list event) : Prop :=
  (~ wants_unified l /\ ev = []) \/
  (wants_unified l /\ exists f dir, file_of root "stats" f /\ (value dir_of None l (Some dir) \/ value dir_of None l None /\ dir = []) /\
     ev = [Unified (filter (wants_test l) [TMapsswe; TSign; TWilc; TMcn; TAnovar]) d f dir]).
(** the tests, the report of all of them, the graphs, and the reports, in a fixed order; the run ends where a DET curve fails *)
Definition does (l : list option_) (det : bool) (ev : list event) (ok : bool) : Prop :=
  exists root d t u g r, root_of l root /\ value desc_of [] l d /\
    Forall2 (test_done l root d) (filter (wants_test l) [TMapsswe; TSeg; TSign; TWilc; TMcn; TAnovar]) t /\
    unified_done l root d u /\
    Forall2 (graph_done root d) (filter (wants_graph l) ([GRange; GGrange; GGrange2] ++ if word_dec root (B "-") then [] else [GDet])) g /\
    Forall2 (rep_done l root d) (filter (wants_rep l) [RSum; RRsum; REsum; RResum; RPrn; RLur]) r /\
    (ok = false <-> wants_graph l GDet = true /\ root <> B "-" /\ det = false) /\
    ev = t ++ u ++ g ++ if ok then r else [].
(** nothing to do: no tests, graphs or reports *)
Definition idle (l : list option_) : Prop := (forall t, wants_test l t = false) /\ (forall g, wants_graph l g = false) /\ (forall r, wants_rep l r = false).
(** a unified report needs a test or a graph *)
Definition sensible (l : list option_) : Prop := wants_unified l -> (exists t, wants_test l t = true) \/ (exists g, wants_graph l g = true).
