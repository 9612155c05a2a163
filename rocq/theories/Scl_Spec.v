(** The command line of sclite, independently of the code in Scl_Model.v: the options of its help text, and what a run with
    them must do. *)
From Coq Require Import String.
From Coq Require Import List ZArith NArith Arith Bool.
From Verif Require Import Base Sgml_Model Scl_Model.
Import ListNotations.
Local Open Scope list_scope.

(** ** Options *)
Inductive flag := CaseSensitive | UseDiff | Fragments | OptionalDeletions | PipeOut | PipeIn | TimeAlign.
Inductive setting := Id | Width | Level | LanguageModel | Directory | Name | Weights.
Inductive split := NoAscii | DeleteHyphens.
Inductive side := OfRef | OfHyp.
Inductive algorithm := Algo1 | Algo2.
Inductive option_ :=
  | Reference (file : list N) (format : option (list N))
  | Hypothesis_ (file : list N) (format : option (list N * option (list N)))   (* a title needs a format *)
  | Flag (f : flag)
  | Set_ (s : setting) (value : list N)
  | Reports (l : list (list N))
  | Confidence (l : list (list N))
  | Characters (l : list split)
  | Reduce (l : list side)
  | Encoding (name : list N) (conversion : option (list N))
  | Segment (a : algorithm) (lexicon : list N) (ascii : bool).
Definition word_of_flag (f : flag) : list N :=
  match f with CaseSensitive => B "-s" | UseDiff => B "-d" | Fragments => B "-F" | OptionalDeletions => B "-D" | PipeOut => B "-p" | PipeIn => B "-P" | TimeAlign => B "-T" end.
Definition word_of_setting (s : setting) : list N :=
  match s with Id => B "-i" | Width => B "-l" | Level => B "-f" | LanguageModel => B "-L" | Directory => B "-O" | Name => B "-n" | Weights => B "-w" end.
Definition opt_word {A} (f : A -> list (list N)) (o : option A) : list (list N) := match o with Some x => f x | None => [] end.
(** the words of an option *)
Definition words (o : option_) : list (list N) :=
  match o with
  | Reference f fm => [B "-r"; f] ++ opt_word (fun w => [w]) fm
  | Hypothesis_ f fm => [B "-h"; f] ++ opt_word (fun x => fst x :: opt_word (fun t => [t]) (snd x)) fm
  | Flag f => [word_of_flag f]
  | Set_ s v => [word_of_setting s; v]
  | Reports l => B "-o" :: l
  | Confidence l => B "-C" :: l
  | Characters l => B "-c" :: map (fun x => match x with NoAscii => B "NOASCII" | DeleteHyphens => B "DH" end) l
  | Reduce l => B "-m" :: map (fun x => match x with OfRef => B "ref" | OfHyp => B "hyp" end) l
  | Encoding n c => [B "-e"; n] ++ opt_word (fun w => [w]) c
  | Segment a x k => [B "-S"; match a with Algo1 => B "algo1" | Algo2 => B "algo2" end; x] ++ if k then [B "ASCIITOO"] else []
  end.
Definition no_dash (s : list N) : Prop := forall r, s <> 45%N :: r.
(** equal but for the case of the letters of ASCII *)
Definition same_letters (a b : list N) : Prop :=
  Forall2 (fun x y => x = y \/ (65 <= x <= 90 /\ y = x + 32)%N \/ (65 <= y <= 90 /\ x = y + 32)%N) a b.
Definition encodings : list string := ["gb"; "euc"; "utf-8"; "ascii"; "ext_ascii"]%string.
Definition conversions : list string :=
  ["generic"; "babel_turkish"; "babel_vietnamese"; "babel_lithuanian"; "babel_kurmanji"; "babel_cebuano"; "babel_kazakh"; "babel_mongolian"; "babel_guarani"; "ukrainian"]%string.
Definition named (l : list string) (w : list N) : Prop := exists n, In n l /\ same_letters w (B n).
(** options that can be used: what is not the value of a setting does not look like an option *)
Definition usable (e : env) (o : option_) : Prop :=
  match o with
  | Reference f fm => no_dash f /\ (forall w, fm = Some w -> no_dash w)
  | Hypothesis_ f fm => no_dash f /\ (forall w t, fm = Some (w, t) -> no_dash w /\ forall x, t = Some x -> no_dash x)
  | Flag UseDiff => e_diff e = true
  | Set_ LanguageModel _ => e_slm e = true
  | Reports l | Confidence l => l <> [] /\ Forall no_dash l
  | Encoding n c => named encodings n /\ (forall w, c = Some w -> named conversions w)
  | Segment _ x _ => no_dash x /\ e_exists e x = true
  | _ => True
  end.

(** ** What the options say *)
Definition last_of {A} (f : option_ -> option A) (l : list option_) : option A :=
  fold_left (fun a o => match f o with Some x => Some x | None => a end) l None.
Definition or_else {A} (o : option A) (d : A) : A := match o with Some x => x | None => d end.
Definition flag_dec (a b : flag) : {a = b} + {a <> b}. Proof. decide equality. Defined.
Definition setting_dec (a b : setting) : {a = b} + {a <> b}. Proof. decide equality. Defined.
Definition split_dec (a b : split) : {a = b} + {a <> b}. Proof. decide equality. Defined.
Definition side_dec (a b : side) : {a = b} + {a <> b}. Proof. decide equality. Defined.
Definition algorithm_dec (a b : algorithm) : {a = b} + {a <> b}. Proof. decide equality. Defined.
Definition on (l : list option_) (w : flag) : bool := existsb (fun o => match o with Flag f => if flag_dec f w then true else false | _ => false end) l.
(** the last value of a setting *)
Definition value (l : list option_) (w : setting) : option (list N) := last_of (fun o => match o with Set_ s v => if setting_dec s w then Some v else None | _ => None end) l.
(** the last reference, the last format named for one, and the hypotheses with format and title *)
Definition ref_of (l : list option_) : option (list N) := last_of (fun o => match o with Reference f _ => Some f | _ => None end) l.
Definition ref_format (l : list option_) : list N := or_else (last_of (fun o => match o with Reference _ fm => fm | _ => None end) l) (B "trn").
Definition hyp_of (o : option_) : list (list N * list N * list N) :=
  match o with
  | Hypothesis_ f None => [(f, B "trn", f)]
  | Hypothesis_ f (Some (fm, t)) => [(f, fm, or_else t f)]
  | _ => []
  end.
Definition hyps_of (l : list option_) : list (list N * list N * list N) := flat_map hyp_of l.
(** splitting into characters: asked?, not of ASCII words?, without hyphens? *)
Definition has {A} (dec : forall a b : A, {a = b} + {a <> b}) (l : list A) (x : A) : bool := if in_dec dec x l then true else false.
Definition chars_of (l : list option_) : bool * bool * bool :=
  match last_of (fun o => match o with Characters w => Some w | _ => None end) l with
  | Some w => (true, has split_dec w NoAscii, has split_dec w DeleteHyphens)
  | None => (false, false, false)
  end.
(** reduction of the reference, of the hypothesis *)
Definition reduce_of (l : list option_) : bool * bool :=
  match last_of (fun o => match o with Reduce w => Some w | _ => None end) l with
  | Some [] => (true, false)
  | Some w => (has side_dec w OfRef, has side_dec w OfHyp)
  | None => (false, false)
  end.
(** an algorithm is on if it was named an odd number of times *)
Definition odd_times (l : list option_) (a : algorithm) : bool :=
  Nat.odd (length (filter (fun o => match o with Segment x _ _ => if algorithm_dec x a then true else false | _ => false end) l)).
Definition segment_of (l : list option_) : bool * bool * option (list N) * bool :=
  (odd_times l Algo1, odd_times l Algo2, last_of (fun o => match o with Segment _ x _ => Some x | _ => None end) l,
   existsb (fun o => match o with Segment _ _ k => k | _ => false end) l).
(** ** Reports *)
Definition rnames (r : rep) : list string :=
  match r with
  | RSum => ["sum"; "all"] | RRsum => ["rsum"; "all"] | RPra => ["pralign"; "pra"; "all"] | RLur => ["lur"] | RSgml => ["sgml"] | RStdout => ["stdout"]
  | RSnt => ["snt"] | RSpk => ["spk"] | RDtl => ["dtl"] | RPrf => ["prf"] | RWws => ["wws"] | RNlSgml => ["nl.sgml"]
  end%string.
Definition cnames (c : crep) : list string := match c with CDet => ["det"] | CBhist => ["bhist"] | CHist => ["hist"] | CSbhist => ["sbhist"] end%string.
Definition is_word (w : list N) (n : string) : bool := if list_eq_dec N.eq_dec w (B n) then true else false.
(** on after the words: named an odd number of times since the last "none" *)
Fixpoint since_none (l : list (list N)) : list (list N) :=
  match l with [] => [] | w :: r => if existsb (fun x => is_word x "none") l then since_none r else l end.
Definition asked (names : list string) (l : list (list N)) : bool := Nat.odd (length (filter (fun w => existsb (is_word w) names) (since_none l))).
Definition report_words (l : list option_) : list (list N) := flat_map (fun o => match o with Reports w => w | _ => [] end) l.
Definition conf_words (l : list option_) : list (list N) := flat_map (fun o => match o with Confidence w => w | _ => [] end) l.
(** an option that says where the result goes *)
Definition directed (l : list option_) : bool := existsb (fun o => match o with Reports _ | Confidence _ | Flag PipeOut => true | _ => false end) l.
Definition shown (l : list option_) (r : rep) : bool :=
  if directed l then asked (rnames r) (report_words l) else match r with RSum | RStdout => true | _ => false end.
Definition analysed (l : list option_) (c : crep) : bool := asked (cnames c) (conf_words l).

(** ** Which runs are accepted *)
Definition formats (l : list option_) : list (list N) := map (fun h => snd (fst h)) (hyps_of l).
Definition files (l : list option_) : list (list N) := map (fun h => fst (fst h)) (hyps_of l).
Definition among (l : list string) (w : list N) : Prop := In w (map B l).
(** the inputs: both a reference and a hypothesis, with files and formats that can be read *)
Definition good_inputs (e : env) (l : list option_) : Prop :=
  (exists f, ref_of l = Some f /\ e_exists e f = true) /\ hyps_of l <> [] /\ Forall (fun f => e_exists e f = true) (files l) /\
  among ["trn"; "ctm"; "tmk"; "stm"]%string (ref_format l) /\ Forall (among ["trn"; "ctm"; "tmk"; "txt"]%string) (formats l) /\
  (value l Id = None -> ~ In (B "trn") (ref_format l :: formats l)) /\
  (on l TimeAlign = true -> Forall (eq (B "ctm")) (ref_format l :: formats l)).
(** what excludes what *)
Definition others (l : list option_) : Prop :=
  on l TimeAlign = true \/ fst (fst (chars_of l)) = true \/ odd_times l Algo1 = true \/ odd_times l Algo2 = true \/ on l UseDiff = true.
Definition compatible (l : list option_) : Prop :=
  (on l PipeOut = true -> asked (rnames RStdout) (report_words l) = false) /\
  (forall w, value l Id = Some w -> among ["swb"; "rm"; "wsj"; "spu_id"; "sp"]%string w) /\
  (reduce_of l <> (false, false) -> ref_format l = B "stm" /\ Forall (eq (B "ctm")) (formats l) /\ on l UseDiff = false) /\
  (fst (fst (chars_of l)) = true -> on l UseDiff = false /\ ~ (ref_format l = B "stm" /\ nth_error (formats l) 0 = Some (B "txt"))) /\
  (value l Weights = None \/ value l LanguageModel = None) /\
  (value l Weights = None /\ value l LanguageModel = None \/ ~ others l) /\
  (shown l RWws = true -> value l Weights <> None \/ value l LanguageModel <> None).
(** how two formats are scored *)
Inductive scored (e : env) (diff : bool) : list N -> list N -> method -> Prop :=
  | s_trn : scored e diff (B "trn") (B "trn") (if diff then TransDiff else TransDp)
  | s_stm : scored e diff (B "stm") (B "ctm") (if diff then StmDiff else StmDp)
  | s_ctm : scored e diff (B "ctm") (B "ctm") CtmDp
  | s_txt : e_diff e = true -> scored e diff (B "stm") (B "txt") TextStm.
Definition weights_read (e : env) (l : list option_) : Prop := forall w, value l Weights = Some w -> e_weights e w = true.
Definition ready (e : env) (l : list option_) : Prop :=
  good_inputs e l /\ compatible l /\ weights_read e l /\ Forall (fun h => exists m, scored e (on l UseDiff) (ref_format l) h m) (formats l) /\
  (forall i, i < length (hyps_of l) -> e_aligns e i = true).

(** ** What a run does *)
Definition is_dp (m : method) : bool := match m with TransDp | StmDp => true | _ => false end.
Definition when {A} (b : bool) (x : A) : option A := if b then Some x else None.
(** the alignment of a hypothesis *)
Definition call_for (l : list option_) (r : list N) (h : list N * list N * list N) (m : method) : call :=
  {| k_method := m; k_ref := r; k_hyp := fst (fst h); k_title := snd h; k_case := on l CaseSensitive;
     k_id := when (match m with CtmDp => false | _ => true end) (value l Id);
     k_char := when (is_dp m) (chars_of l); k_segment := when (is_dp m) (segment_of l);
     k_frag := when (is_dp m || match m with CtmDp => true | _ => false end) (on l Fragments);
     k_optdel := when (is_dp m || match m with CtmDp => true | _ => false end) (on l OptionalDeletions);
     k_reduce := when (match m with StmDp => true | _ => false end) (reduce_of l);
     k_time := when (match m with CtmDp => true | _ => false end) (on l TimeAlign);
     k_weights := when (is_dp m || match m with CtmDp => true | _ => false end) (value l Weights, value l LanguageModel) |}.
(** the root of the names of the output files: in the given directory or in that of the input, with the given name or that of the
    input *)
Definition root_is (l : list option_) (name root : list N) : Prop :=
  exists d b, name = d ++ b /\ ~ In 47%N b /\ (d = [] \/ exists d', d = d' ++ [47%N]) /\
    root = match value l Directory with Some o => o ++ [47%N] | None => if list_eq_dec N.eq_dec d (B "./") then [] else d end ++ or_else (value l Name) b.
(** the width of the lines of the alignments, the feedback: none with a pipe, or with reports asked for on the standard output *)
Definition line_of (l : list option_) (r : rep) : option Z :=
  match r with RPra | RPrf => Some (match value l Width with Some w => atoi w | None => 1000%Z end) | _ => None end.
Definition level_of (l : list option_) : Z :=
  if on l PipeOut then 0%Z
  else match value l Level with Some w => atoi w | None => if directed l && shown l RStdout then 0%Z else 1%Z end.
(** the encoding and the case conversion of the last -e that names them *)
Definition encoding_is (l : list option_) (c : option (list N)) : Prop :=
  match last_of (fun o => match o with Encoding n _ => Some n | _ => None end) l with
  | None => c = None
  | Some n => exists k v, In (k, v) [("gb", "GB"); ("euc", "GB"); ("utf-8", "UTF-8"); ("ascii", "ASCII"); ("ext_ascii", "EXT_ASCII")]%string /\ same_letters n (B k) /\ c = Some (B v)
  end.
Definition conversion_is (l : list option_) (c : option (list N)) : Prop :=
  match last_of (fun o => match o with Encoding _ w => w | _ => None end) l with
  | None => c = None
  | Some w => exists k, In k conversions /\ same_letters w (B k) /\ c = Some (B k)
  end.
(** the reports about one alignment, in this order *)
Definition outputs (l : list option_) (x : source) (root : list N) : list event :=
  flat_map (fun r => if shown l r then [Report r x (if shown l RStdout then None else Some root) (line_of l r)] else [])
    [RSum; RWws; RRsum; RSnt; RSpk; RDtl; RLur; RPra; RPrf; RSgml; RNlSgml] ++
  flat_map (fun c => if analysed l c then [Analysis c x root] else []) [CDet; CBhist; CHist; CSbhist].
(** the hypotheses from number i on: each is aligned, then reported on *)
Inductive scoring (e : env) (l : list option_) (r : list N) : nat -> list (list N * list N * list N) -> list event -> Prop :=
  | sc_nil i : scoring e l r i [] []
  | sc_cons i h hs m root ev : scored e (on l UseDiff) (ref_format l) (snd (fst h)) m -> root_is l (fst (fst h)) root -> scoring e l r (S i) hs ev ->
      scoring e l r i (h :: hs) (Align (call_for l r h m) :: outputs l (FromHyp i) root ++ ev).
Inductive reporting (l : list option_) : nat -> list (list N) -> list event -> Prop :=
  | rp_nil i : reporting l i [] []
  | rp_cons i t ts root ev : root_is l t root -> reporting l (S i) ts ev -> reporting l i (t :: ts) (outputs l (FromPipe i) root ++ ev).
Definition piped_out (l : list option_) (f : nat -> source) (n : nat) : list event := if on l PipeOut then map (fun i => Dump (f i)) (seq 0 n) else [].
Definition does (l : list option_) (o : run) (ev : list event) : Prop :=
  o_level o = level_of l /\ encoding_is l (o_encoding o) /\ conversion_is l (o_conversion o) /\ o_events o = ev.
(** the words of the options, those that end in a value, those that cannot be the last word *)
Definition option_words : list string := ["-r"; "-h"; "-i"; "-l"; "-L"; "-f"; "-o"; "-C"; "-O"; "-n"; "-d"; "-s"; "-m"; "-F"; "-D"; "-c"; "-e"; "-p"; "-P"; "-T"; "-S"; "-w"]%string.
Definition unfinished : list string := ["-r"; "-h"; "-i"; "-l"; "-L"; "-f"; "-o"; "-C"; "-O"; "-n"; "-e"; "-S"; "-w"]%string.
Definition finished (l : list option_) : Prop := exists k o, l = k ++ [o] /\ match o with Flag _ | Set_ _ _ => True | _ => False end.
(** words that are not looked at: after a finished option, everything from a word that does not look like an option *)
Definition ignored (l : list option_) (tail : list (list N)) : Prop := tail = [] \/ finished l /\ exists w r, tail = w :: r /\ no_dash w.
(** values that are no good: an option word or a file that does not exist where a file is expected, a name that is not known, and
    options of libraries that are not there *)
Inductive bad_value (e : env) : list (list N) -> Prop :=
  | bv_file : forall w f rest, In w ["-r"; "-h"]%string -> ~ no_dash f -> bad_value e (B w :: f :: rest)
  | bv_encoding : forall n rest, ~ named encodings n -> bad_value e (B "-e" :: n :: rest)
  | bv_conversion : forall n w rest, named encodings n -> no_dash w -> ~ named conversions w -> bad_value e (B "-e" :: n :: w :: rest)
  | bv_reduce : forall ws w rest, (forall x, In x ws -> In x [B "ref"; B "hyp"]) -> no_dash w -> ~ In w [B "ref"; B "hyp"] -> bad_value e (B "-m" :: ws ++ w :: rest)
  | bv_char : forall ws w rest, (forall x, In x ws -> In x [B "NOASCII"; B "DH"]) -> no_dash w -> ~ In w [B "NOASCII"; B "DH"] -> bad_value e (B "-c" :: ws ++ w :: rest)
  | bv_algorithm : forall a rest, ~ In a [B "algo1"; B "algo2"] -> bad_value e (B "-S" :: a :: rest)
  | bv_lexicon : forall a x rest, ~ (no_dash x /\ e_exists e x = true) -> bad_value e (B "-S" :: a :: x :: rest)
  | bv_ascii : forall a x w rest, no_dash w -> w <> B "ASCIITOO" -> bad_value e (B "-S" :: a :: x :: w :: rest)
  | bv_diff : forall rest, e_diff e = false -> bad_value e (B "-d" :: rest)
  | bv_model : forall rest, e_slm e = false -> bad_value e (B "-L" :: rest).
