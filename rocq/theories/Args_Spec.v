(** The command line of asclite, independently of the code in Args_Model.v: the options of its help text, and
    what a run with them must do. *)
From Coq Require Import String.
From Coq Require Import List ZArith NArith Arith Bool.
From Verif Require Store_Model.
From Verif Require Import Base Sgml_Model Args_Model.
Import ListNotations.
Local Open Scope list_scope.

(** ** Options *)
Inductive rformat := Rstm | Rrttm | Rtrn.
Inductive hformat := Hctm | Hrttm | Htrn.
Inductive side := OnRef | OnHyp | OnBoth.
Inductive report := Sum | Rsum | Sgml | Stdout.
Inductive switch := CaseSensitive | FragmentsCorrect | TimeBased | Adaptive | WordAlign | ForceCompression | Generic | NoGaps | CheckSpeakers.
Inductive setting := Utterance | Prune | WordTime | SpeakerFile | OverlapLimit | OverlapMin | OnlyGroup | Compression | MemoryLimit
  | DifficultyLimit | DifficultyMin | Directory | Level | Width | Threads.
Inductive option_ :=
  | Hypothesis_ (file : list N) (format : option hformat) (title : option (list N))
  | Reference (file : list N) (format : option rformat)
  | Uem (file : list N) (on : option side)
  | SelfOverlap (on : option side)
  | Optional (on : option side)
  | Switch (s : switch)
  | Set_ (s : setting) (value : list N)
  | Property (name value : list N)
  | Output (l : list report).
Definition rname (f : rformat) : list N := match f with Rstm => B "stm" | Rrttm => B "rttm" | Rtrn => B "trn" end.
Definition hname (f : hformat) : list N := match f with Hctm => B "ctm" | Hrttm => B "rttm" | Htrn => B "trn" end.
Definition sname (s : side) : list N := match s with OnRef => B "ref" | OnHyp => B "hyp" | OnBoth => B "both" end.
Definition oname (r : report) : list N := match r with Sum => B "sum" | Rsum => B "rsum" | Sgml => B "sgml" | Stdout => B "stdout" end.
Definition word_of_switch (s : switch) : list N :=
  match s with
  | CaseSensitive => B "-s" | FragmentsCorrect => B "-F" | TimeBased => B "-time-base-cost" | Adaptive => B "-adaptive-cost" | WordAlign => B "-wordalign-cost"
  | ForceCompression => B "-force-memory-compression" | Generic => B "-generic-cost" | NoGaps => B "-noisg" | CheckSpeakers => B "-spkrmap"
  end.
Definition word_of_setting (s : setting) : list N :=
  match s with
  | Utterance => B "-i" | Prune => B "-time-prune" | WordTime => B "-word-time-align" | SpeakerFile => B "-spkr-align" | OverlapLimit => B "-overlap-limit"
  | OverlapMin => B "-overlap-min" | OnlyGroup => B "-only-SG" | Compression => B "-memory-compression" | MemoryLimit => B "-memory-limit"
  | DifficultyLimit => B "-difficulty-limit" | DifficultyMin => B "-min-difficulty-limit" | Directory => B "-O" | Level => B "-f" | Width => B "-l"
  | Threads => B "-threads"
  end.
Definition opt_word {A} (f : A -> list N) (o : option A) : list (list N) := match o with Some x => [f x] | None => [] end.
(** the words of an option *)
Definition words (o : option_) : list (list N) :=
  match o with
  | Hypothesis_ f fm t => [B "-h"; f] ++ opt_word hname fm ++ opt_word (fun t => t) t
  | Reference f fm => [B "-r"; f] ++ opt_word rname fm
  | Uem f s => [B "-uem"; f] ++ opt_word sname s
  | SelfOverlap s => B "-spkrautooverlap" :: opt_word sname s
  | Optional s => B "-D" :: opt_word sname s
  | Switch s => [word_of_switch s]
  | Set_ s v => [word_of_setting s; v]
  | Property n v => [B "--set-property"; n; v]
  | Output l => B "-o" :: map oname l
  end.
Definition no_dash (s : list N) : Prop := forall r, s <> 45%N :: r.
(** options that can be used: no value looks like an option; a title needs a format *)
Definition usable (o : option_) : Prop :=
  match o with
  | Hypothesis_ f fm (Some t) => fm <> None /\ no_dash t
  | Set_ Threads v => no_dash v /\ (1 <= atoi v)%Z
  | Set_ _ v => no_dash v
  | Property n v => no_dash n /\ no_dash v
  | Output l => 1 <= length l <= 4
  | _ => True
  end.

(** ** What the options say *)
Definition last_of {A} (f : option_ -> option A) (l : list option_) : option A :=
  fold_left (fun a o => match f o with Some x => Some x | None => a end) l None.
Definition or_else {A} (o : option A) (d : A) : A := match o with Some x => x | None => d end.
Definition switch_dec (a b : switch) : {a = b} + {a <> b}. Proof. decide equality. Defined.
Definition setting_dec (a b : setting) : {a = b} + {a <> b}. Proof. decide equality. Defined.
Definition on (l : list option_) (w : switch) : bool := existsb (fun o => match o with Switch s => if switch_dec s w then true else false | _ => false end) l.
Definition given (l : list option_) (w : setting) : bool := existsb (fun o => match o with Set_ s _ => if setting_dec s w then true else false | _ => false end) l.
(** the last value of a setting, or the default *)
Definition value (l : list option_) (w : setting) (d : list N) : list N :=
  or_else (last_of (fun o => match o with Set_ s v => if setting_dec s w then Some v else None | _ => None end) l) d.
Definition hyps_of (l : list option_) : list input :=
  flat_map (fun o => match o with Hypothesis_ f fm t => [{| i_file := f; i_format := hname (or_else fm Htrn); i_title := or_else t [] |}] | _ => [] end) l.
Definition ref_of (l : list option_) : option (list N * rformat) := last_of (fun o => match o with Reference f fm => Some (f, or_else fm Rtrn) | _ => None end) l.
Definition uem_of (l : list option_) : option (list N * side) := last_of (fun o => match o with Uem f s => Some (f, or_else s OnBoth) | _ => None end) l.
Definition self_of (l : list option_) : option side := last_of (fun o => match o with SelfOverlap s => Some (or_else s OnBoth) | _ => None end) l.
Definition optional_of (l : list option_) : option side := last_of (fun o => match o with Optional s => Some (or_else s OnBoth) | _ => None end) l.
Definition property_of (l : list option_) (name : list N) : option (list N) :=
  last_of (fun o => match o with Property n v => if list_eq_dec N.eq_dec n name then Some v else None | _ => None end) l.
Definition reports_of (l : list option_) : list (list N) := flat_map (fun o => match o with Output r => map oname r | _ => [] end) l.

(** ** What a run does *)
Definition generic (l : list option_) : bool := on l Generic.
(** a run without references only filters the hypotheses *)
Definition side_in (g : bool) (s : option side) : option side :=
  match s with Some OnRef => if g then None else Some OnRef | Some _ => if g then Some OnHyp else s | None => None end.
Definition uem_side (l : list option_) : option side := side_in (generic l) (option_map snd (uem_of l)).
Definition self_side (l : list option_) : option side := side_in (generic l) (self_of l).
Definition optional_word (l : list option_) : list N :=
  match optional_of l with None => B "none" | Some OnRef => B "ref" | Some OnHyp => B "hyp" | Some OnBoth => if generic l then B "hyp" else B "both" end.
(** neither gaps nor UEM for a trn reference *)
Definition trn_ref (l : list option_) : bool := match ref_of l with Some (_, Rtrn) => true | _ => false end.
Definition first_rttm (l : list option_) : bool := match hyps_of l with i :: _ => if list_eq_dec N.eq_dec (i_format i) (B "rttm") then true else false | [] => false end.
Definition truth (b : bool) : list N := if b then B "true" else B "false".
Definition some {A} (o : option A) : bool := match o with Some _ => true | None => false end.
(** the properties; a property that is not set is empty *)
Definition table (l : list option_) : list (string * list N) :=
  [("inputparser.trn.uid"%string, value l Utterance (B "spu_id"));
   ("align.case_sensitive"%string, truth (on l CaseSensitive));
   ("align.fragment_are_correct"%string, truth (on l FragmentsCorrect));
   ("align.timepruneoptimization"%string, truth (given l Prune));
   ("align.timepruneoptimizationthreshold"%string, value l Prune (B "0"));
   ("align.timewordoptimization"%string, truth (given l WordTime));
   ("align.timewordoptimizationthreshold"%string, value l WordTime (B "0"));
   ("align.speakeroptimization"%string, truth (given l SpeakerFile));
   ("align.memorycompression"%string, truth (given l Compression || on l ForceCompression));
   ("align.forcememorycompression"%string, truth (on l ForceCompression));
   ("align.memorycompressionblock"%string, value l Compression (B "256"));
   ("align.adaptivecost"%string, truth (on l Adaptive));
   ("align.wordaligncost"%string, truth (on l WordAlign));
   ("align.genericmethod"%string, truth (generic l));
   ("align.typecost"%string, if on l TimeBased then B "2" else B "1");
   ("threads.number"%string, value l Threads (B "1"));
   ("recording.maxspeakeroverlaping"%string, value l OverlapLimit (B "4"));
   ("recording.minspeakeroverlaping"%string, value l OverlapMin (B "0"));
   ("recording.bonlysg"%string, truth (given l OnlyGroup));
   ("recording.onlysg"%string, value l OnlyGroup []);
   ("recording.maxnbofgb"%string, value l MemoryLimit (B "1"));
   ("recording.difficultygb"%string, truth (given l DifficultyLimit));
   ("recording.nbrdifficultygb"%string, value l DifficultyLimit (B "16"));
   ("recording.mindifficultygb"%string, truth (given l DifficultyMin));
   ("recording.minnbrdifficultygb"%string, value l DifficultyMin (B "0"));
   ("recording.maxoverlapinghypothesis"%string, if first_rttm l then value l OverlapLimit (B "4") else B "1");
   ("align.optionally"%string, optional_word l);
   ("general.feedback.level"%string, int_text (atoi (value l Level (B "4"))));
   ("report.outputdir"%string, value l Directory []);
   ("align.type"%string, B "lev");
   ("score.type"%string, B "stt");
   ("filter.uem.isg"%string, truth (negb (on l NoGaps) && negb (generic l) && negb (trn_ref l)));
   ("filter.spkrautooverlap"%string, match self_side l with Some _ => B "true" | None => [] end);
   ("filter.spkrautooverlap.option"%string, match self_side l with Some s => sname s | None => [] end);
   ("filter.spkrmap"%string, B "false");
   ("filter.uem"%string, if trn_ref l then [] else truth (some (uem_side l)));
   ("filter.uem.option"%string, if trn_ref l then [] else match uem_side l with Some s => sname s | None => [] end);
   ("filter.uem.arg_uemfilename"%string, if trn_ref l then [] else match uem_side l, uem_of l with Some _, Some (f, _) => f | _, _ => [] end)].
Fixpoint lookup (t : list (string * list N)) (name : list N) : list N :=
  match t with [] => [] | (n, v) :: r => if list_eq_dec N.eq_dec (B n) name then v else lookup r name end.
Definition wanted (l : list option_) (name : list N) : list N := match property_of l name with Some v => v | None => lookup (table l) name end.

Inductive fits : rformat -> list N -> Prop :=
  | fits_trn : fits Rtrn (B "trn") | fits_ctm : fits Rstm (B "ctm") | fits_rttm : fits Rstm (B "rttm") | fits_both : fits Rrttm (B "rttm").
Definition acceptable (l : list option_) : Prop :=
  hyps_of l <> [] /\
  (generic l = false -> exists f fm, ref_of l = Some (f, fm) /\ (forall h, In h (hyps_of l) -> fits fm (i_format h)) /\ (on l TimeBased = true -> fm = Rrttm)).
Definition meets (l : list option_) (c : config) : Prop :=
  c_level c = atoi (value l Level (B "4")) /\
  c_ref c = (if generic l then None else option_map (fun r => {| i_file := fst r; i_format := rname (snd r); i_title := [] |}) (ref_of l)) /\
  c_hyps c = hyps_of l /\
  c_uem c = match uem_of l with Some (f, _) => f | None => [] end /\
  c_spkr c = value l SpeakerFile [] /\
  c_filters c = (if some (self_side l) then [B "filter.spkrautooverlap"] else [])
                ++ (if negb (trn_ref l) && (some (uem_side l) || (negb (on l NoGaps) && negb (generic l))) then [B "filter.uem"] else []) /\
  c_outputs c = (if generic l then if existsb (fun o => if list_eq_dec N.eq_dec o (B "stdout") then true else false) (reports_of l) then [B "stdout"] else []
                 else match reports_of l with [] => [B "sum"; B "stdout"] | r => r end) /\
  forall name, fst (Store_Model.get_property (c_props c) name) = wanted l name.
(** the words that are options *)
Definition option_words : list (list N) :=
  map B ["-h"; "-r"; "-uem"; "-spkrautooverlap"; "-noisg"; "-spkrmap"; "-i"; "-time-prune"; "-word-time-align"; "-spkr-align"; "-memory-limit"; "-difficulty-limit";
         "-min-difficulty-limit"; "-memory-compression"; "-overlap-limit"; "-overlap-min"; "-only-SG"; "--set-property"; "-s"; "-adaptive-cost"; "-generic-cost";
         "-time-base-cost"; "-wordalign-cost"; "-force-memory-compression"; "-F"; "-D"; "-O"; "-f"; "-l"; "-o"; "-threads"]%string.
(** options that take no further word *)
Definition complete (o : option_) : Prop :=
  match o with
  | Hypothesis_ _ (Some _) (Some _) | Reference _ (Some _) | Uem _ (Some _) | SelfOverlap (Some _) | Optional (Some _) | Switch _ | Set_ _ _ | Property _ _ => True
  | _ => False
  end.
