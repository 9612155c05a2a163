(** The command line of asclite: /repo/src/asclite/core/main.cpp:123-1077, with the properties of
    Store_Model (properties.cpp).

    Arguments are lists of bytes other than 0, without the name of the program.  Numbers read with atoi fit
    an int.  The text of the help and the messages are not modelled. *)
From Coq Require Import String.
From Coq Require Import List ZArith NArith Arith Bool.
From Verif Require Store_Model.
From Verif Require Import Base Sgml_Model.
Import ListNotations.
Local Open Scope list_scope.

Definition same (a b : str) : bool := Store_Model.str_eqb a b.
(** main.cpp:26-29 *)
Record input := { i_file : str; i_format : str; i_title : str }.
(** main.cpp:131-182: the variables of type bool, without those that are never read (arg_boptionaltoken) and those
    that are kept elsewhere (arg_ok, arg_bref) *)
Inductive bv := BUtterance | BCase | BFrag | BPrune | BWord | BSpkr | BMaxOver | BMinOver | BOnly | BMemory | BForce | BProperty
  | BAdaptive | BWordAlign | BMaxGb | BDiff | BMinDiff | BUem | BIsg | BSpkrMap | BAuto | BTimeBase | BGeneric.
Definition bv_dec (a b : bv) : {a = b} + {a <> b}. Proof. decide equality. Defined.
(** main.cpp:131-182: those of type string *)
Inductive sv := SUtterance | SPrune | SWord | SSpkr | SMaxOver | SMinOver | SOnly | SMemory | SOptional | SOutDir | SMaxGb | SDiff | SMinDiff
  | SUemFile | SUem | SAuto | SThreads.
Definition sv_dec (a b : sv) : {a = b} + {a <> b}. Proof. decide equality. Defined.
Record st := { b_ : bv -> bool; s_ : sv -> str; feedback : Z; width : Z; outs : list str; hyps : list input; ref : option input;
               props : Store_Model.smap str; ok : bool }.
Definition setb (x : bv) (v : bool) (s : st) : st :=
  {| b_ := fun y => if bv_dec y x then v else b_ s y; s_ := s_ s; feedback := feedback s; width := width s; outs := outs s; hyps := hyps s; ref := ref s; props := props s; ok := ok s |}.
Definition sets (x : sv) (v : str) (s : st) : st :=
  {| b_ := b_ s; s_ := fun y => if sv_dec y x then v else s_ s y; feedback := feedback s; width := width s; outs := outs s; hyps := hyps s; ref := ref s; props := props s; ok := ok s |}.
Definition set_feedback (v : Z) (s : st) : st :=
  {| b_ := b_ s; s_ := s_ s; feedback := v; width := width s; outs := outs s; hyps := hyps s; ref := ref s; props := props s; ok := ok s |}.
Definition set_width (v : Z) (s : st) : st :=
  {| b_ := b_ s; s_ := s_ s; feedback := feedback s; width := v; outs := outs s; hyps := hyps s; ref := ref s; props := props s; ok := ok s |}.
Definition set_outs (v : list str) (s : st) : st :=
  {| b_ := b_ s; s_ := s_ s; feedback := feedback s; width := width s; outs := v; hyps := hyps s; ref := ref s; props := props s; ok := ok s |}.
Definition set_hyps (v : list input) (s : st) : st :=
  {| b_ := b_ s; s_ := s_ s; feedback := feedback s; width := width s; outs := outs s; hyps := v; ref := ref s; props := props s; ok := ok s |}.
Definition set_ref (v : option input) (s : st) : st :=
  {| b_ := b_ s; s_ := s_ s; feedback := feedback s; width := width s; outs := outs s; hyps := hyps s; ref := v; props := props s; ok := ok s |}.
Definition set_props (v : Store_Model.smap str) (s : st) : st :=
  {| b_ := b_ s; s_ := s_ s; feedback := feedback s; width := width s; outs := outs s; hyps := hyps s; ref := ref s; props := v; ok := ok s |}.
Definition fail (s : st) : st :=
  {| b_ := b_ s; s_ := s_ s; feedback := feedback s; width := width s; outs := outs s; hyps := hyps s; ref := ref s; props := props s; ok := false |}.
(** main.cpp:131-182 *)
Definition start : st :=
  {| b_ := fun x => match x with BIsg => true | _ => false end;
     s_ := fun x => match x with
           | SUtterance => B "spu_id" | SPrune => B "0" | SWord => B "0" | SSpkr => [] | SMaxOver => B "4" | SMinOver => B "0" | SOnly => []
           | SMemory => B "256" | SOptional => B "none" | SOutDir => [] | SMaxGb => B "1" | SDiff => B "16" | SMinDiff => B "0"
           | SUemFile => [] | SUem => [] | SAuto => [] | SThreads => B "1" end;
     feedback := 4; width := 27; outs := []; hyps := []; ref := None; props := []; ok := true |}.

(** ** One argument *)
(** argv[i][0] == '-' *)
Definition dash (s : str) : bool := match s with c :: _ => (c =? 45)%N | [] => false end.
Inductive kind := KHyp | KRef | KUem | KAuto | KNoIsg | KSpkrMap | KValued (x : bv) (y : sv) | KProperty | KFlag (x : bv) | KForce
  | KOptional | KOutDir | KFeedback | KWidth | KOutput | KThreads | KUnknown.
(** the comparisons of 192-814 in their order *)
Definition classify (a : str) : kind :=
  if same a (B "-h") then KHyp else if same a (B "-r") then KRef else if same a (B "-uem") then KUem
  else if same a (B "-spkrautooverlap") then KAuto else if same a (B "-noisg") then KNoIsg else if same a (B "-spkrmap") then KSpkrMap
  else if same a (B "-i") then KValued BUtterance SUtterance else if same a (B "-time-prune") then KValued BPrune SPrune
  else if same a (B "-word-time-align") then KValued BWord SWord else if same a (B "-spkr-align") then KValued BSpkr SSpkr
  else if same a (B "-memory-limit") then KValued BMaxGb SMaxGb else if same a (B "-difficulty-limit") then KValued BDiff SDiff
  else if same a (B "-min-difficulty-limit") then KValued BMinDiff SMinDiff else if same a (B "-memory-compression") then KValued BMemory SMemory
  else if same a (B "-overlap-limit") then KValued BMaxOver SMaxOver else if same a (B "-overlap-min") then KValued BMinOver SMinOver
  else if same a (B "-only-SG") then KValued BOnly SOnly else if same a (B "--set-property") then KProperty
  else if same a (B "-s") then KFlag BCase else if same a (B "-adaptive-cost") then KFlag BAdaptive else if same a (B "-generic-cost") then KFlag BGeneric
  else if same a (B "-time-base-cost") then KFlag BTimeBase else if same a (B "-wordalign-cost") then KFlag BWordAlign
  else if same a (B "-force-memory-compression") then KForce else if same a (B "-F") then KFlag BFrag else if same a (B "-D") then KOptional
  else if same a (B "-O") then KOutDir else if same a (B "-f") then KFeedback else if same a (B "-l") then KWidth
  else if same a (B "-o") then KOutput else if same a (B "-threads") then KThreads else KUnknown.
(** main.cpp:192-245 *)
Definition hyp_arg (rest : list str) (s : st) : st * list str :=
  match rest with
  | [] => (fail s, [])
  | f :: r =>
      match r with
      | [] => (set_hyps (hyps s ++ [{| i_file := f; i_format := B "trn"; i_title := [] |}]) s, [])
      | w :: r2 =>
          let '(format, after, title) :=
            if same w (B "ctm") then (B "ctm", r2, None) else if same w (B "rttm") then (B "rttm", r2, None)
            else if same w (B "trn") then (B "trn", r2, None)
            else if negb (dash w) then (B "trn", r, Some f) else (B "trn", r, None) in
          let '(title, after) :=
            match title, after with
            | None, t :: a => if negb (dash t) then (Some t, a) else (None, after)
            | _, _ => (title, after)
            end in
          (set_hyps (hyps s ++ [{| i_file := f; i_format := format; i_title := match title with Some t => t | None => [] end |}]) s, after)
      end
  end.
(** main.cpp:248-286 *)
Definition ref_arg (rest : list str) (s : st) : st * list str :=
  match rest with
  | [] => (fail s, [])
  | f :: r =>
      let '(format, after) :=
        match r with
        | [] => (B "trn", [])
        | w :: r2 => if same w (B "stm") then (B "stm", r2) else if same w (B "rttm") then (B "rttm", r2) else if same w (B "trn") then (B "trn", r2)
                     else (B "trn", r)
        end in
      (set_ref (Some {| i_file := f; i_format := format; i_title := [] |}) s, after)
  end.
(** main.cpp:298-318, 335-352: ref, hyp or both *)
Definition which_arg (r : list str) : str * list str :=
  match r with
  | [] => (B "both", [])
  | w :: r2 => if same w (B "ref") then (B "ref", r2) else if same w (B "hyp") then (B "hyp", r2) else if same w (B "both") then (B "both", r2)
               else (B "both", r)
  end.
(** main.cpp:290-327 *)
Definition uem_arg (rest : list str) (s : st) : st * list str :=
  match rest with
  | [] => (fail s, [])
  | f :: r => let (w, after) := which_arg r in (setb BUem true (sets SUem w (sets SUemFile f s)), after)
  end.
(** main.cpp:373-588: a value that does not begin with '-'; an error if the option never had one *)
Definition valued_arg (x : bv) (y : sv) (rest : list str) (s : st) : st * list str :=
  let '(s, after) := match rest with v :: r => if negb (dash v) then (sets y v (setb x true s), r) else (s, rest) | [] => (s, rest) end in
  (if negb (b_ s x) then fail s else s, after).
(** main.cpp:593-618 *)
Definition property_arg (rest : list str) (s : st) : st * list str :=
  let '(s, after) :=
    match rest with
    | n :: r => if negb (dash n) then
                  match r with
                  | v :: r2 => if negb (dash v) then (set_props (Store_Model.mput (props s) n v) (setb BProperty true s), r2) else (s, r)
                  | [] => (s, r)
                  end
                else (s, rest)
    | [] => (s, rest)
    end in
  (if negb (b_ s BProperty) then fail s else s, after).
(** main.cpp:665-686 *)
Definition optional_arg (rest : list str) (s : st) : st * list str :=
  match rest with
  | v :: r => if negb (dash v) && (negb (same v (B "ref")) || negb (same v (B "hyp")) || negb (same v (B "both")))
              then (sets SOptional v s, r) else (sets SOptional (B "both") s, rest)
  | [] => (sets SOptional (B "both") s, rest)
  end.
(** main.cpp:690-740: a value that may be missing unless the option is the last word *)
Definition loose_arg (f : str -> st -> st) (rest : list str) (s : st) : st * list str :=
  match rest with v :: r => if negb (dash v) then (f v s, r) else (s, rest) | [] => (fail s, rest) end.
(** main.cpp:746-779 *)
Fixpoint output_words (j : nat) (rest : list str) (s : st) : st * list str :=
  match j, rest with
  | S j', v :: r =>
      if ok s then
        if negb (dash v) then
          if same v (B "sum") || same v (B "rsum") || same v (B "sgml") || same v (B "stdout") then output_words j' r (set_outs (outs s ++ [v]) s)
          else output_words j' rest (fail s)
        else output_words j' rest s
      else (s, rest)
  | _, _ => (s, rest)
  end.
(** main.cpp:744-786 *)
Definition output_arg (rest : list str) (s : st) : st * list str :=
  let '(s, after) := output_words 4 rest s in (match outs s with [] => fail s | _ => s end, after).
(** main.cpp:789-812 *)
Definition threads_arg (rest : list str) (s : st) : st * list str :=
  match rest with
  | [] => (fail s, [])
  | v :: r =>
      let '(s, after) := if negb (dash v) then (sets SThreads v s, r) else (s, rest) in
      (if (atoi (s_ s SThreads) <? 1)%Z then fail s else s, after)
  end.
(** main.cpp:191-817: the body of the loop *)
Definition step (a : str) (rest : list str) (s : st) : st * list str :=
  match classify a with
  | KHyp => hyp_arg rest s
  | KRef => ref_arg rest s
  | KUem => uem_arg rest s
  | KAuto => let (w, after) := which_arg rest in (setb BAuto true (sets SAuto w s), after)
  | KNoIsg => (setb BIsg false s, rest)
  | KSpkrMap => (setb BSpkrMap false s, rest)
  | KValued x y => valued_arg x y rest s
  | KProperty => property_arg rest s
  | KFlag x => (setb x true s, rest)
  | KForce => (setb BMemory true (setb BForce true s), rest)
  | KOptional => optional_arg rest s
  | KOutDir => loose_arg (fun v => sets SOutDir v) rest s
  | KFeedback => loose_arg (fun v => set_feedback (atoi v)) rest s
  | KWidth => loose_arg (fun v => set_width (atoi v)) rest s
  | KOutput => output_arg rest s
  | KThreads => threads_arg rest s
  | KUnknown => (fail s, rest)
  end.
Local Open Scope res_scope.
(** main.cpp:189-818 *)
Fixpoint loop (fuel : nat) (args : list str) (s : st) : res st :=
  match args with
  | [] => Ok s
  | a :: rest =>
      if ok s then match fuel with O => NoFuel | S k => let '(s, after) := step a rest s in loop k after s end
      else Ok s
  end.

(** ** Checks *)
Definition format_of (o : option input) : str := match o with Some i => i_format i | None => [] end.
(** main.cpp:844-857 *)
Definition formats_match (r : str) (h : input) : bool :=
  (same (i_format h) (B "trn") && same r (B "trn")) || (same (i_format h) (B "ctm") && same r (B "stm"))
  || (same (i_format h) (B "rttm") && same r (B "stm")) || (same (i_format h) (B "rttm") && same r (B "rttm")).
Definition is_nil {A} (l : list A) : bool := match l with [] => true | _ => false end.
Definition is_none {A} (o : option A) : bool := match o with None => true | _ => false end.
(** main.cpp:820-873 *)
Definition check_ref (s : st) : res st :=
  let s := if is_none (ref s) || is_nil (hyps s) then fail s else s in
  let* s := if b_ s BTimeBase then
              match hyps s with
              | [] => Undef
              | h :: _ => Ok (if same (i_format h) (B "trn") || same (format_of (ref s)) (B "trn") || same (format_of (ref s)) (B "stm") then fail s else s)
              end
            else Ok s in
  let s := if negb (is_nil (hyps s)) && negb (is_none (ref s)) then
             if forallb (formats_match (format_of (ref s))) (hyps s) then s else fail s
           else s in
  Ok (match outs s with [] => set_outs [B "sum"; B "stdout"] s | _ => s end).
(** main.cpp:874-921; the format of an ignored reference stays *)
Definition check_generic (s : st) : st :=
  let s := if is_nil (hyps s) then fail s else s in
  let isout := existsb (fun o => same o (B "stdout")) (outs s) in
  let s := set_outs (if isout then [B "stdout"] else []) (setb BIsg false s) in
  let s := if b_ s BAuto then
             if same (s_ s SAuto) (B "hyp") || same (s_ s SAuto) (B "both") then sets SAuto (B "hyp") s else setb BAuto false s
           else s in
  let s := if b_ s BUem then
             if same (s_ s SUem) (B "hyp") || same (s_ s SUem) (B "both") then sets SUem (B "hyp") s else setb BUem false s
           else s in
  if same (s_ s SOptional) (B "hyp") || same (s_ s SOptional) (B "both") then sets SOptional (B "hyp") s else s.

(** ** What is launched *)
Definition yes_no (b : bool) : str := if b then B "true" else B "false".
(** main.cpp:932-1016: the properties in the order they are set; the first hypothesis exists *)
Definition assignments (s : st) : list (str * str) :=
  [(B "inputparser.trn.uid", s_ s SUtterance); (B "align.case_sensitive", yes_no (b_ s BCase)); (B "align.fragment_are_correct", yes_no (b_ s BFrag));
   (B "align.timepruneoptimization", yes_no (b_ s BPrune)); (B "align.timepruneoptimizationthreshold", s_ s SPrune);
   (B "align.timewordoptimization", yes_no (b_ s BWord)); (B "align.timewordoptimizationthreshold", s_ s SWord);
   (B "align.speakeroptimization", yes_no (b_ s BSpkr)); (B "align.memorycompression", yes_no (b_ s BMemory));
   (B "align.forcememorycompression", yes_no (b_ s BForce)); (B "align.memorycompressionblock", s_ s SMemory);
   (B "align.adaptivecost", yes_no (b_ s BAdaptive)); (B "align.wordaligncost", yes_no (b_ s BWordAlign)); (B "align.genericmethod", yes_no (b_ s BGeneric));
   (B "align.typecost", if b_ s BTimeBase then B "2" else B "1"); (B "threads.number", s_ s SThreads);
   (B "recording.maxspeakeroverlaping", s_ s SMaxOver); (B "recording.minspeakeroverlaping", s_ s SMinOver);
   (B "recording.bonlysg", yes_no (b_ s BOnly)); (B "recording.onlysg", s_ s SOnly); (B "recording.maxnbofgb", s_ s SMaxGb);
   (B "recording.difficultygb", yes_no (b_ s BDiff)); (B "recording.nbrdifficultygb", s_ s SDiff);
   (B "recording.mindifficultygb", yes_no (b_ s BMinDiff)); (B "recording.minnbrdifficultygb", s_ s SMinDiff);
   (B "recording.maxoverlapinghypothesis", B "1")]
  ++ (match hyps s with h :: _ => if same (i_format h) (B "rttm") then [(B "recording.maxoverlapinghypothesis", s_ s SMaxOver)] else [] | [] => [] end)
  ++ [(B "align.optionally", s_ s SOptional); (B "general.feedback.level", int_text (feedback s)); (B "report.outputdir", s_ s SOutDir);
      (B "align.type", B "lev"); (B "score.type", B "stt"); (B "filter.uem.isg", yes_no (b_ s BIsg))]
  ++ (if b_ s BAuto then [(B "filter.spkrautooverlap", B "true"); (B "filter.spkrautooverlap.option", s_ s SAuto)] else [])
  ++ [(B "filter.spkrmap", yes_no (b_ s BSpkrMap))]
  ++ (if same (format_of (ref s)) (B "trn") then [(B "filter.uem.isg", B "false")]
      else if b_ s BUem then [(B "filter.uem", B "true"); (B "filter.uem.option", s_ s SUem); (B "filter.uem.arg_uemfilename", s_ s SUemFile)]
      else [(B "filter.uem", B "false")])
  ++ props s.
(** main.cpp:978-1000 *)
Definition filters (s : st) : list str :=
  (if b_ s BAuto then [B "filter.spkrautooverlap"] else [])
  ++ (if same (format_of (ref s)) (B "trn") then [] else if b_ s BUem || b_ s BIsg then [B "filter.uem"] else []).
(** main.cpp:930-1057: what the recording is given *)
Record config := { c_level : Z; c_props : Store_Model.props; c_ref : option input; c_hyps : list input; c_uem : str; c_spkr : str;
                   c_filters : list str; c_outputs : list str }.
Definition config_of (s : st) : config :=
  {| c_level := feedback s;
     c_props := fold_left (fun p a => Store_Model.set_property p (fst a) (snd a)) (assignments s) Store_Model.initialize;
     c_ref := if b_ s BGeneric then None else ref s; c_hyps := hyps s; c_uem := s_ s SUemFile; c_spkr := s_ s SSpkr;
     c_filters := filters s; c_outputs := outs s |}.
Inductive outcome := Help | Refused | Launch (c : config).
(** main.cpp:123-1077 [main] *)
Definition main (args : list str) : res outcome :=
  match args with
  | [] => Ok Help
  | _ =>
      let* s := loop (length args) args start in
      let* s := if b_ s BGeneric then Ok (check_generic s) else check_ref s in
      Ok (if ok s then Launch (config_of s) else Refused)
  end.
