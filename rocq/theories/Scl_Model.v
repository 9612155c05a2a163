(** The command line of sclite and what the program does with it: /repo/src/sclite/sclite.c, [proc_args] 391-757 and
    [main] 98-389.

    Arguments are lists of bytes other than 0, without the name of the program.  Numbers read with atoi fit an int and
    names are shorter than FILENAME_MAX.  A set of bits (OUT_, CONF_OUT_, CALI_, REDUCE_, INF_) is a set of flags.  The
    messages, the feedback on stdout and the contents of the reports are not modelled here; the files of a report are
    given by the root of their names and can be opened, and the alignments of a wws report are weighted.  Exit is the
    end of the program with status 1. *)
From Coq Require Import String.
From Coq Require Import List ZArith NArith Arith Bool.
From Verif Require Store_Model.
From Verif Require Import Base Sgml_Model.
Import ListNotations.
Local Open Scope list_scope.
Local Open Scope res_scope.

Definition same (a b : str) : bool := Store_Model.str_eqb a b.
(** *argv == '-' *)
Definition dash (s : str) : bool := match s with c :: _ => (c =? 45)%N | [] => false end.
(** sclite.c:11-22 without OUT_ *)
Inductive rep := RSum | RRsum | RPra | RLur | RSgml | RStdout | RSnt | RSpk | RDtl | RPrf | RWws | RNlSgml.
(** sclite.c:24-28 *)
Inductive crep := CDet | CBhist | CHist | CSbhist.
(** the variables of type int, with one for every bit: case_sense, use_diff, frag_correct, opt_del, pipeout, pipein, time_align,
    char_align, stm2ctm_reduce, infered_wordseg, inf_flags, fbset, outset, outputs, conf_outputs *)
Inductive bv := BCase | BDiff | BFrag | BOptDel | BPipeOut | BPipeIn | BTime | BChar | BNoAscii | BDelHyp | BRedRef | BRedHyp | BAlgo1 | BAlgo2
  | BAsciiToo | BFbSet | BOutSet | BRep (r : rep) | BConf (c : crep).
Definition rep_dec (a b : rep) : {a = b} + {a <> b}. Proof. decide equality. Defined.
Definition crep_dec (a b : crep) : {a = b} + {a <> b}. Proof. decide equality. Defined.
Definition bv_dec (a b : bv) : {a = b} + {a <> b}. Proof. decide equality; [apply rep_dec|apply crep_dec]. Defined.
(** those of type char *: rname, rfmt, id, out_dir, out_name, lexicon, wwl_file, lm_file, and the names of the encoding and of
    the case conversion that were set *)
Inductive sv := SRef | SRefFmt | SId | SDir | SName | SLexicon | SWwl | SLm | SEnc | SProf.
Definition sv_dec (a b : sv) : {a = b} + {a <> b}. Proof. decide equality. Defined.
(** hname, hfmt and title at one index *)
Record hyp := { h_file : str; h_fmt : str; h_title : str }.
Record st := { b_ : bv -> bool; s_ : sv -> option str; feedback : Z; width : Z; hyps : list hyp }.
Definition setb (x : bv) (v : bool) (s : st) : st :=
  {| b_ := fun y => if bv_dec y x then v else b_ s y; s_ := s_ s; feedback := feedback s; width := width s; hyps := hyps s |}.
Definition sets (x : sv) (v : str) (s : st) : st :=
  {| b_ := b_ s; s_ := fun y => if sv_dec y x then Some v else s_ s y; feedback := feedback s; width := width s; hyps := hyps s |}.
Definition set_feedback (v : Z) (s : st) : st := {| b_ := b_ s; s_ := s_ s; feedback := v; width := width s; hyps := hyps s |}.
Definition set_width (v : Z) (s : st) : st := {| b_ := b_ s; s_ := s_ s; feedback := feedback s; width := v; hyps := hyps s |}.
Definition add_hyp (h : hyp) (s : st) : st := {| b_ := b_ s; s_ := s_ s; feedback := feedback s; width := width s; hyps := hyps s ++ [h] |}.
(** BF_FLIP, sctk.h:55 *)
Definition flip (x : bv) (s : st) : st := setb x (negb (b_ s x)) s.
(** sclite.c:399-425 *)
Definition start : st := {| b_ := fun _ => false; s_ := fun _ => None; feedback := 1; width := 1000; hyps := [] |}.

(** What is outside of the program: how it was built (WITH_SLM, DIFF_ENABLED), which files exist, which word weight lists can be
    read, which alignments succeed, and the titles of the alignments on the standard input, if they can be read. *)
Record env := { e_slm : bool; e_diff : bool; e_exists : str -> bool; e_weights : str -> bool; e_aligns : nat -> bool; e_piped : option (list str) }.

(** ** Options *)
(** text.c:862 for names in ASCII *)
Definition lower (c : N) : N := if (65 <=? c)%N && (c <=? 90)%N then (c + 32)%N else c.
Definition icase (a b : str) : bool := same (map lower a) (map lower b).
(** text.c:387-403 *)
Definition encoding (w : str) : option str :=
  if icase w (B "EUC") || icase w (B "GB") then Some (B "GB") else if icase w (B "EXT_ASCII") then Some (B "EXT_ASCII")
  else if icase w (B "ASCII") then Some (B "ASCII") else if icase w (B "UTF-8") then Some (B "UTF-8") else None.
(** text.c:410-443 *)
Definition profiles : list str :=
  [B "generic"; B "babel_turkish"; B "babel_vietnamese"; B "babel_lithuanian"; B "babel_kurmanji"; B "babel_cebuano"; B "babel_kazakh"; B "babel_mongolian";
   B "babel_guarani"; B "ukrainian"].
Definition profile (w : str) : option str := find (icase w) profiles.
(** sclite.c:466-498: one report *)
Definition report_word (w : str) (s : st) : st :=
  if same w (B "sum") then flip (BRep RSum) s else if same w (B "wws") then flip (BRep RWws) s else if same w (B "rsum") then flip (BRep RRsum) s
  else if same w (B "pralign") || same w (B "pra") then flip (BRep RPra) s else if same w (B "prf") then flip (BRep RPrf) s
  else if same w (B "lur") then flip (BRep RLur) s else if same w (B "stdout") then flip (BRep RStdout) s else if same w (B "sgml") then flip (BRep RSgml) s
  else if same w (B "nl.sgml") then flip (BRep RNlSgml) s else if same w (B "snt") then flip (BRep RSnt) s else if same w (B "spk") then flip (BRep RSpk) s
  else if same w (B "dtl") then flip (BRep RDtl) s
  else if same w (B "all") then flip (BRep RPra) (flip (BRep RSum) (flip (BRep RRsum) s))
  else if same w (B "none") then
    {| b_ := fun y => match y with BRep _ => false | _ => b_ s y end; s_ := s_ s; feedback := feedback s; width := width s; hyps := hyps s |}
  else s.
(** sclite.c:508-521 *)
Definition conf_word (w : str) (s : st) : st :=
  if same w (B "det") then flip (BConf CDet) s else if same w (B "bhist") then flip (BConf CBhist) s else if same w (B "sbhist") then flip (BConf CSbhist) s
  else if same w (B "hist") then flip (BConf CHist) s
  else if same w (B "none") then
    {| b_ := fun y => match y with BConf _ => false | _ => b_ s y end; s_ := s_ s; feedback := feedback s; width := width s; hyps := hyps s |}
  else s.
(** sclite.c:541-551 *)
Definition reduce_word (w : str) (s : st) : res st :=
  if same w (B "ref") then Ok (setb BRedRef true s) else if same w (B "hyp") then Ok (setb BRedHyp true s) else Exit.
(** sclite.c:560-569 *)
Definition char_word (w : str) (s : st) : res st :=
  if same w (B "NOASCII") then Ok (setb BNoAscii true s) else if same w (B "DH") then Ok (setb BDelHyp true s) else Exit.
(** the loops over the words up to the next one with a '-' *)
Fixpoint word_loop (f : str -> st -> res st) (rest : list str) (s : st) : res (st * list str) :=
  match rest with
  | w :: r => if negb (dash w) then let* s := f w s in word_loop f r s else Ok (s, rest)
  | [] => Ok (s, [])
  end.
Inductive kind := KRef | KHyp | KId | KWidth | KLm | KFeedback | KReports | KConfs | KDir | KName | KDiff | KFlag (x : bv) | KReduce | KChar | KEnc | KPipeOut
  | KSegment | KWeights | KUnknown.
(** the comparisons of 428-629 in their order *)
Definition classify (a : str) : kind :=
  if same a (B "-r") then KRef else if same a (B "-h") then KHyp else if same a (B "-i") then KId else if same a (B "-l") then KWidth
  else if same a (B "-L") then KLm else if same a (B "-f") then KFeedback else if same a (B "-o") then KReports else if same a (B "-C") then KConfs
  else if same a (B "-O") then KDir else if same a (B "-n") then KName else if same a (B "-d") then KDiff else if same a (B "-s") then KFlag BCase
  else if same a (B "-m") then KReduce else if same a (B "-F") then KFlag BFrag else if same a (B "-D") then KFlag BOptDel else if same a (B "-c") then KChar
  else if same a (B "-e") then KEnc else if same a (B "-p") then KPipeOut else if same a (B "-P") then KFlag BPipeIn else if same a (B "-T") then KFlag BTime
  else if same a (B "-S") then KSegment else if same a (B "-w") then KWeights else KUnknown.
(** sclite.c:429-432 *)
Definition ref_arg (rest : list str) (s : st) : res (st * list str) :=
  match rest with
  | [] => Exit
  | f :: r =>
      if dash f then Exit
      else match r with
           | w :: r2 => if negb (dash w) then Ok (sets SRefFmt w (sets SRef f s), r2) else Ok (sets SRef f s, r)
           | [] => Ok (sets SRef f s, r)
           end
  end.
(** sclite.c:434-446; the arrays have 40 places (MAX_HYPS, 96) *)
Definition hyp_arg (rest : list str) (s : st) : res (st * list str) :=
  match rest with
  | [] => Exit
  | f :: r =>
      if dash f then Exit
      else if (40 <=? length (hyps s))%nat then Undef
      else
        let '(fmt, r) := match r with w :: r2 => if negb (dash w) then (w, r2) else (B "trn", r) | [] => (B "trn", r) end in
        let '(title, r) := match r with w :: r2 => if negb (dash w) then (w, r2) else (f, r) | [] => (f, r) end in
        Ok (add_hyp {| h_file := f; h_fmt := fmt; h_title := title |} s, r)
  end.
(** an option with one word, whatever it is: 448-463, 529-534, 626-627 *)
Definition one_arg (f : str -> st -> st) (rest : list str) (s : st) : res (st * list str) :=
  match rest with v :: r => Ok (f v s, r) | [] => Exit end.
(** sclite.c:571-586 *)
Definition enc_arg (rest : list str) (s : st) : res (st * list str) :=
  match rest with
  | [] => Exit
  | w :: r =>
      if dash w then Exit
      else match encoding w with
           | None => Exit
           | Some n =>
               match r with
               | p :: r2 => if negb (dash p) then match profile p with None => Exit | Some q => Ok (sets SProf q (sets SEnc n s), r2) end else Ok (sets SEnc n s, r)
               | [] => Ok (sets SEnc n s, r)
               end
           end
  end.
(** sclite.c:595-624 *)
Definition segment_arg (e : env) (rest : list str) (s : st) : res (st * list str) :=
  match rest with
  | a :: x :: r =>
      if dash a then Exit
      else
        let* s := if same a (B "algo1") then Ok (flip BAlgo1 s) else if same a (B "algo2") then Ok (flip BAlgo2 s) else Exit in
        if dash x then Exit
        else if negb (e_exists e x) then Exit
        else
          let s := sets SLexicon x s in
          match r with
          | w :: r2 => if negb (dash w) then if same w (B "ASCIITOO") then Ok (setb BAsciiToo true s, r2) else Exit else Ok (s, r)
          | [] => Ok (s, r)
          end
  | _ => Exit
  end.
(** sclite.c:428-633: the body of the loop *)
Definition step (e : env) (a : str) (rest : list str) (s : st) : res (st * list str) :=
  match classify a with
  | KRef => ref_arg rest s
  | KHyp => hyp_arg rest s
  | KId => one_arg (sets SId) rest s
  | KWidth => one_arg (fun v => set_width (atoi v)) rest s
  | KLm => if e_slm e then one_arg (sets SLm) rest s else Exit
  | KFeedback => one_arg (fun v s => setb BFbSet true (set_feedback (atoi v) s)) rest s
  | KReports => match rest with
                | [] => Exit
                | _ => let* (s, r) := word_loop (fun w s => Ok (report_word w s)) rest s in Ok (setb BOutSet true s, r)
                end
  | KConfs => match rest with
              | [] => Exit
              | _ => let* (s, r) := word_loop (fun w s => Ok (conf_word w s)) rest s in Ok (setb BOutSet true s, r)
              end
  | KDir => one_arg (sets SDir) rest s
  | KName => one_arg (sets SName) rest s
  | KDiff => if e_diff e then Ok (setb BDiff true s, rest) else Exit
  | KFlag x => Ok (setb x true s, rest)
  | KReduce => let* (s, r) := word_loop reduce_word rest (setb BRedHyp false (setb BRedRef false s)) in
               Ok (if negb (b_ s BRedRef) && negb (b_ s BRedHyp) then setb BRedRef true s else s, r)
  | KChar => word_loop char_word rest (setb BDelHyp false (setb BNoAscii false (setb BChar true s)))
  | KEnc => enc_arg rest s
  | KPipeOut => Ok (setb BOutSet true (setb BPipeOut true s), rest)
  | KSegment => segment_arg e rest s
  | KWeights => one_arg (sets SWwl) rest s
  | KUnknown => Exit
  end.
(** sclite.c:427: up to the first word without '-' where an option is expected *)
Fixpoint loop (fuel : nat) (e : env) (args : list str) (s : st) : res st :=
  match args with
  | [] => Ok s
  | a :: rest =>
      if dash a then match fuel with O => NoFuel | S k => let* (s, rest) := step e a rest s in loop k e rest s end
      else Ok s
  end.

(** ** Checks *)
Definition all_reps : list rep := [RSum; RRsum; RPra; RLur; RSgml; RStdout; RSnt; RSpk; RDtl; RPrf; RWws; RNlSgml].
Definition some {A} (o : option A) : bool := match o with Some _ => true | None => false end.
Definition is (o : option str) (w : str) : bool := match o with Some x => same x w | None => false end.
Definition require (b : bool) : res unit := if b then Ok tt else Exit.
(** sclite.c:636-653 *)
Definition outputs_check (s : st) : res st :=
  let* s := if b_ s BPipeOut then let* _ := require (negb (b_ s (BRep RStdout))) in Ok (set_feedback 0 s) else Ok s in
  let s := if forallb (fun r => negb (b_ s (BRep r))) all_reps && negb (b_ s BOutSet) then setb (BRep RStdout) true (setb (BRep RSum) true s) else s in
  Ok (if b_ s (BRep RStdout) && b_ s BOutSet && (0 <? feedback s)%Z && negb (b_ s BFbSet) then set_feedback 0 s else s).
Definition one_of (l : list str) (w : str) : bool := existsb (same w) l.
Definition is_nil {A} (l : list A) : bool := match l with [] => true | _ => false end.
(** sclite.c:656-709 *)
Definition inputs_check (e : env) (s : st) : res st :=
  let* _ := require (b_ s BPipeIn || (some (s_ s SRef) && negb (is_nil (hyps s)))) in
  let* _ := require (negb (negb (some (s_ s SRef)) && negb (is_nil (hyps s)))) in
  let* _ := require (negb (some (s_ s SRef) && is_nil (hyps s))) in
  match s_ s SRef with
  | Some f =>
      if is_nil (hyps s) then Ok s
      else
        let* _ := require (e_exists e f) in
        let* _ := require (forallb (fun h => e_exists e (h_file h)) (hyps s)) in
        let s := match s_ s SRefFmt with None => sets SRefFmt (B "trn") s | Some _ => s end in
        let* _ := require (match s_ s SRefFmt with Some w => one_of [B "trn"; B "ctm"; B "tmk"; B "stm"] w | None => false end) in
        let* _ := require (forallb (fun h => one_of [B "trn"; B "ctm"; B "tmk"; B "txt"] (h_fmt h)) (hyps s)) in
        let* _ := require (some (s_ s SId) || negb (is (s_ s SRefFmt) (B "trn") || existsb (fun h => same (h_fmt h) (B "trn")) (hyps s))) in
        let* _ := require (negb (b_ s BTime) || (is (s_ s SRefFmt) (B "ctm") && forallb (fun h => same (h_fmt h) (B "ctm")) (hyps s))) in
        Ok s
  | None => Ok s
  end.
(** sclite.c:711-725: strcmp with a null pointer is undefined *)
Definition id_check (s : st) : res unit :=
  match s_ s SId with Some w => require (one_of [B "swb"; B "rm"; B "wsj"; B "spu_id"; B "sp"] w) | None => Ok tt end.
Definition reduce_check (s : st) : res unit :=
  if b_ s BRedRef || b_ s BRedHyp then
    match s_ s SRefFmt with
    | None => Undef
    | Some w =>
        let* _ := require (same w (B "stm")) in
        let* _ := require (forallb (fun h => same (h_fmt h) (B "ctm")) (hyps s)) in
        require (negb (b_ s BDiff))
    end
  else Ok tt.
(** sclite.c:731-733 *)
Definition char_check (s : st) : res unit :=
  if b_ s BChar then
    if b_ s BDiff then Exit
    else match s_ s SRefFmt, hyps s with
         | Some w, h :: _ => require (negb (same w (B "stm") && same (h_fmt h) (B "txt")))
         | _, _ => Undef
         end
  else Ok tt.
(** sclite.c:735-756 *)
Definition weights_check (s : st) : res unit :=
  let others := b_ s BTime || b_ s BChar || (b_ s BAlgo1 || b_ s BAlgo2) || b_ s BDiff in
  let* _ := require (negb (some (s_ s SWwl) && some (s_ s SLm))) in
  let* _ := require (negb (some (s_ s SWwl) && others)) in
  let* _ := require (negb (some (s_ s SLm) && others)) in
  require (negb (b_ s (BRep RWws) && negb (some (s_ s SWwl)) && negb (some (s_ s SLm)))).
(** sclite.c:391-757 [proc_args] *)
Definition proc_args (e : env) (args : list str) : res st :=
  match args with
  | [] => Exit
  | _ =>
      let* s := loop (length args) e args start in
      let* s := outputs_check s in
      let* s := inputs_check e s in
      let* _ := id_check s in
      let* _ := reduce_check s in
      let* _ := char_check s in
      let* _ := weights_check s in
      Ok s
  end.

(** ** The run *)
Inductive method := TransDp | TransDiff | StmDp | StmDiff | CtmDp | TextStm.
(** The call that aligns, 202-254, with its arguments; None is an argument the function does not have. *)
Record call := { k_method : method; k_ref : str; k_hyp : str; k_title : str; k_case : bool; k_id : option (option str); k_char : option (bool * bool * bool);
                 k_segment : option (bool * bool * option str * bool); k_frag : option bool; k_optdel : option bool; k_reduce : option (bool * bool);
                 k_time : option bool; k_weights : option (option str * option str) }.
Definition dp_call (m : method) (rd : option (bool * bool)) (s : st) (r : str) (h : hyp) : call :=
  {| k_method := m; k_ref := r; k_hyp := h_file h; k_title := h_title h; k_case := b_ s BCase; k_id := Some (s_ s SId);
     k_char := Some (b_ s BChar, b_ s BNoAscii, b_ s BDelHyp); k_segment := Some (b_ s BAlgo1, b_ s BAlgo2, s_ s SLexicon, b_ s BAsciiToo);
     k_frag := Some (b_ s BFrag); k_optdel := Some (b_ s BOptDel); k_reduce := rd; k_time := None; k_weights := Some (s_ s SWwl, s_ s SLm) |}.
Definition diff_call (m : method) (s : st) (r : str) (h : hyp) : call :=
  {| k_method := m; k_ref := r; k_hyp := h_file h; k_title := h_title h; k_case := b_ s BCase; k_id := Some (s_ s SId); k_char := None; k_segment := None;
     k_frag := None; k_optdel := None; k_reduce := None; k_time := None; k_weights := None |}.
Definition ctm_call (s : st) (r : str) (h : hyp) : call :=
  {| k_method := CtmDp; k_ref := r; k_hyp := h_file h; k_title := h_title h; k_case := b_ s BCase; k_id := None; k_char := None; k_segment := None;
     k_frag := Some (b_ s BFrag); k_optdel := Some (b_ s BOptDel); k_reduce := None; k_time := Some (b_ s BTime); k_weights := Some (s_ s SWwl, s_ s SLm) |}.
(** sclite.c:202-258; left_to_right is 1 *)
Definition align_call (e : env) (s : st) (h : hyp) : res call :=
  match s_ s SRef, s_ s SRefFmt with
  | Some r, Some f =>
      if same f (B "trn") && same (h_fmt h) (B "trn") then Ok (if negb (b_ s BDiff) then dp_call TransDp None s r h else diff_call TransDiff s r h)
      else if same f (B "stm") && same (h_fmt h) (B "ctm") then
        Ok (if negb (b_ s BDiff) then dp_call StmDp (Some (b_ s BRedRef, b_ s BRedHyp)) s r h else diff_call StmDiff s r h)
      else if same f (B "ctm") && same (h_fmt h) (B "ctm") then Ok (ctm_call s r h)
      else if same f (B "stm") && same (h_fmt h) (B "txt") then if e_diff e then Ok (diff_call TextStm s r h) else Exit
      else Exit
  | _, _ => Undef
  end.
(** strrchr(name, '/'): what is before and after the last slash *)
Fixpoint split_slash (s : str) : option (str * str) :=
  match s with
  | [] => None
  | c :: r => match split_slash r with
              | Some (d, b) => Some (c :: d, b)
              | None => if (c =? 47)%N then Some ([], r) else None
              end
  end.
(** sclite.c:178-200, 265-281 *)
Definition out_root (s : st) (name : str) : str :=
  let '(hdir, hroot) := match split_slash name with Some (d, b) => (d, b) | None => (B ".", name) end in
  let base := match s_ s SName with Some n => n | None => hroot end in
  match s_ s SDir with
  | Some d => d ++ 47%N :: base
  | None => if negb (same hdir (B ".")) then hdir ++ 47%N :: base else base
  end.
(** Where the alignments of a slot come from, and what is done: calls, reports on stdout or in files with a root (with a width for
    those that have one), and the alignments written to the pipe. *)
Inductive source := FromPipe (i : nat) | FromHyp (i : nat).
Inductive event := Align (c : call) | Report (r : rep) (x : source) (to : option str) (line : option Z) | Analysis (c : crep) (x : source) (root : str) | Dump (x : source).
Definition use (o : option source) : res source := match o with Some x => Ok x | None => Undef end.
(** sclite.c:283-357 *)
Fixpoint reports (s : st) (root : str) (o : option source) (l : list rep) : res (list event) :=
  match l with
  | [] => Ok []
  | r :: k => let* a := if b_ s (BRep r) then let* x := use o in Ok [Report r x (if b_ s (BRep RStdout) then None else Some root) (match r with RPra | RPrf => Some (width s) | _ => None end)] else Ok [] in
              let* b := reports s root o k in Ok (a ++ b)
  end.
(** sclite.c:358-369 *)
Fixpoint analyses (s : st) (root : str) (o : option source) (l : list crep) : res (list event) :=
  match l with
  | [] => Ok []
  | c :: k => let* a := if b_ s (BConf c) then let* x := use o in Ok [Analysis c x root] else Ok [] in
              let* b := analyses s root o k in Ok (a ++ b)
  end.
Definition written : list rep := [RSum; RWws; RRsum; RSnt; RSpk; RDtl; RLur; RPra; RPrf; RSgml; RNlSgml].
Definition analysed : list crep := [CDet; CBhist; CHist; CSbhist].
(** sclite.c:170-371: the round [nsc] with [n] rounds left; [scor] is the array.  A failed alignment ends the program. *)
Fixpoint rounds (e : env) (s : st) (titles : list str) (n nsc : nat) (scor : nat -> option source) : res (list event * (nat -> option source)) :=
  match n with
  | O => Ok ([], scor)
  | S k =>
      let* (ev, root, scor) :=
        match nth_error titles nsc with
        | Some t => Ok ([], out_root s t, scor)
        | None =>
            let nh := (nsc - length titles)%nat in
            match nth_error (hyps s) nh with
            | None => Undef
            | Some h =>
                let* c := align_call e s h in
                if e_aligns e nh then Ok ([Align c], out_root s (h_file h), fun i => if (i =? nh)%nat then Some (FromHyp nh) else scor i) else Exit
            end
        end in
      let* a := reports s root (scor nsc) written in
      let* b := analyses s root (scor nsc) analysed in
      let* (rest, scor) := rounds e s titles k (S nsc) scor in
      Ok (ev ++ a ++ b ++ rest, scor)
  end.
(** sclite.c:373-380: every slot is dumped if asked, and freed *)
Fixpoint dumps (scor : nat -> option source) (n i : nat) : res (list event) :=
  match n with O => Ok [] | S k => let* x := use (scor i) in let* r := dumps scor k (S i) in Ok (Dump x :: r) end.
(** what a run does, with its feedback level, encoding and case conversion *)
Record run := { o_level : Z; o_encoding : option str; o_conversion : option str; o_events : list event }.
(** sclite.c:98-389 [main].  Simplified: a run that ends with an error says nothing of what it did before; the alignments read from the
    pipe are given by their titles, at most as many as the array has places (the loading stops otherwise). *)
Definition main (e : env) (args : list str) : res run :=
  let* s := proc_args e args in
  let* titles := if b_ s BPipeIn then match e_piped e with Some l => Ok l | None => Exit end else Ok [] in
  let* _ := match s_ s SWwl with Some w => require (e_weights e w) | None => Ok tt end in
  let n := (length (hyps s) + length titles)%nat in
  let* (ev, scor) := rounds e s titles n 0 (fun i => if (i <? length titles)%nat then Some (FromPipe i) else None) in
  let* d := dumps scor n 0 in
  Ok {| o_level := feedback s; o_encoding := s_ s SEnc; o_conversion := s_ s SProf; o_events := ev ++ if b_ s BPipeOut then d else [] |}.
