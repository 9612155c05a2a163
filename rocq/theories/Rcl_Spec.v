(** What the options of rover say, without its parser. *)
From Coq Require Import String.
From Coq Require Import List ZArith QArith NArith Bool.
From Verif Require Import Sgml_Model Rcl_Model.
Import ListNotations.
Local Open Scope nat_scope.
Local Open Scope list_scope.

(** ** The options *)
Inductive vote := VMeth1 | VOracle | VPutat | VMaxConf | VAvgConf | VMeth1a | VMaxConfa.
Inductive option_ := Hypothesis_ (file : list N) (format : option (list N)) | Output (file : list N) | Vote (v : vote) | Alpha (v : list N) | NullConf (v : list N)
  | Width (v : list N) | Level (v : list N) | CaseSensitive | UseTimes.
Definition vote_word (v : vote) : string :=
  match v with VMeth1 => "meth1" | VOracle => "oracle" | VPutat => "putat" | VMaxConf => "maxconf" | VAvgConf => "avgconf" | VMeth1a => "meth1a" | VMaxConfa => "maxconfa" end%string.
Definition words (o : option_) : list (list N) :=
  match o with
  | Hypothesis_ f (Some w) => [B "-h"; f; w]
  | Hypothesis_ f None => [B "-h"; f]
  | Output f => [B "-o"; f]
  | Vote v => [B "-m"; B (vote_word v)]
  | Alpha v => [B "-a"; v]
  | NullConf v => [B "-c"; v]
  | Width v => [B "-l"; v]
  | Level v => [B "-f"; v]
  | CaseSensitive => [B "-s"]
  | UseTimes => [B "-T"]
  end.
Definition no_dash (w : list N) : Prop := forall r, w <> 45%N :: r.
Definition usable (o : option_) : Prop :=
  match o with
  | Hypothesis_ f w => no_dash f /\ forall x, w = Some x -> no_dash x
  | Output f => no_dash f
  | _ => True
  end.
(** words that are not looked at: after an option that takes no more words, everything from a word that does not look like an
    option *)
Definition ignored (l : list option_) (tail : list (list N)) : Prop :=
  tail = [] \/ (forall k f, l <> k ++ [Hypothesis_ f None]) /\ exists w r, tail = w :: r /\ no_dash w.
Definition option_words : list string := ["-o"; "-h"; "-a"; "-c"; "-l"; "-f"; "-m"; "-s"; "-T"]%string.

(** ** What they say *)
(** the last value that an option gives *)
Inductive last_value {A} (f : option_ -> option A) : list option_ -> A -> Prop :=
| lv : forall l1 o l2 x, f o = Some x -> (forall p, In p l2 -> f p = None) -> last_value f (l1 ++ o :: l2) x.
Definition value {A} (f : option_ -> option A) (default : A) (l : list option_) (x : A) : Prop :=
  last_value f l x \/ (forall p, In p l -> f p = None) /\ x = default.
Definition hyps_of (l : list option_) : list (list N * list N) :=
  flat_map (fun o => match o with Hypothesis_ f (Some w) => [(f, w)] | Hypothesis_ f None => [(f, B "trn")] | _ => [] end) l.
Definition output_of (o : option_) : option (list N) := match o with Output f => Some f | _ => None end.
Definition vote_of (o : option_) : option vote := match o with Vote v => Some v | _ => None end.
Definition alpha_of (e : env) (o : option_) : option Q := match o with Alpha v => Some (e_atof e v) | _ => None end.
Definition null_of (e : env) (o : option_) : option Q := match o with NullConf v => Some (e_atof e v) | _ => None end.

(** ** What is done *)
Definition one_format (l : list option_) : Prop := forall a b, In a (hyps_of l) -> In b (hyps_of l) -> snd a = snd b.
(** two hypotheses, of one format, an output file and a method *)
Definition complete (l : list option_) (o : list N) (v : vote) : Prop :=
  2 <= length (hyps_of l) /\ one_format l /\ last_value output_of l o /\ last_value vote_of l v.
Definition meth_of (v : vote) : meth :=
  match v with VMeth1 => Meth1 | VOracle => Oracle | VPutat => Putat | VMaxConf => MaxConf | VAvgConf => AvgConf | VMeth1a => Meth1a | VMaxConfa => MaxConfa end.
Definition set_for (e : env) (l : list option_) (v : vote) (c : settings) : Prop :=
  c_inputs c = map fst (hyps_of l) /\ c_method c = meth_of v /\ value (alpha_of e) 1%Q l (c_alpha c) /\ value (null_of e) 0%Q l (c_null c) /\
  (c_times c = true <-> In UseTimes l) /\ (c_case c = true <-> In CaseSensitive l).
(** the names of the inputs, read from the first line of putative hits: what is between the quotes, cut at the blanks *)
Fixpoint until (c : N) (t : list N) : list N := match t with [] => [] | x :: r => if (x =? c)%N then [] else x :: until c r end.
Fixpoint after (c : N) (t : list N) : list N := match t with [] => [] | x :: r => if (x =? c)%N then r else after c r end.
Fixpoint cut (t : list N) : list (list N) :=
  match t with
  | [] => [[]]
  | x :: r => if (x =? 32)%N then [] :: cut r else match cut r with w :: k => (x :: w) :: k | [] => [[x]] end
  end.
Definition listed (t : list N) : list (list N) := cut (until 34%N (after 34%N t)).
Definition plain_name (f : list N) : Prop := ~ In 34%N f /\ ~ In 32%N f.
(** the first line is there for putative hits only *)
Definition headed (l : list option_) (v : vote) (h : list event) : Prop :=
  match v with
  | VPutat => exists t, h = [Write t] /\ (exists r, t = B "<input names=" ++ r) /\ (exists r, t = r ++ [62%N; 10%N]) /\
      (Forall plain_name (map fst (hyps_of l)) -> listed t = map fst (hyps_of l))
  | _ => h = []
  end.
(** a run of a complete command line *)
Inductive does (e : env) (l : list option_) (o : list N) (v : vote) : list event -> bool -> Prop :=
| d_other : (forall a, In a (hyps_of l) -> snd a <> B "ctm") -> does e l o v [] true
| d_create : (forall a, In a (hyps_of l) -> snd a = B "ctm") -> e_creates e o = false -> does e l o v [] false
| d_open : forall h l1 f l2, (forall a, In a (hyps_of l) -> snd a = B "ctm") -> e_creates e o = true -> headed l v h -> map fst (hyps_of l) = l1 ++ f :: l2 ->
    (forall g, In g l1 -> e_opens e g = true) -> e_opens e f = false -> does e l o v (Create o :: h ++ map Open l1) false
| d_all : forall h c, (forall a, In a (hyps_of l) -> snd a = B "ctm") -> e_creates e o = true -> headed l v h -> (forall g, In g (map fst (hyps_of l)) -> e_opens e g = true) ->
    set_for e l v c -> does e l o v (Create o :: h ++ map Open (map fst (hyps_of l)) ++ [Combine c]) true.
