(** Model of asclite's reader of CTM files: the fields of a line, the groups of alternatives
    between <ALT_BEGIN>, <ALT> and <ALT_END>, the segments, the tokens and their links. *)
From Coq Require Import String List ZArith NArith Arith Bool.
From Verif Require Import Base Store_Model Graph_Model Links_Model.
Import ListNotations.
Local Open Scope res_scope.

(** isspace in the C locale; the words "%s" of sscanf finds.  Lines hold no null byte. *)
Definition isspace (c : N) : bool := ((c =? 32) || ((9 <=? c) && (c <=? 13)))%N.
Fixpoint words_from (cur : str) (l : str) : list str :=
  match l with
  | [] => match cur with [] => [] | _ => [cur] end
  | c :: r => if isspace c then match cur with [] => words_from [] r | _ => cur :: words_from [] r end
              else words_from (cur ++ [c]) r
  end.
Definition line_words (l : str) : list str := words_from [] l.

(** stdinc.h:49 *)
Definition BUFFER_SIZE : nat := N.to_nat 255.
(** sscanf with one "%s" per buffer: the buffers beyond the last word keep what they held; a word
    that does not fit with its null byte is undefined.  [None] is a buffer never written. *)
Fixpoint scan (bufs : list (option str)) (ws : list str) : res (list (option str)) :=
  match bufs, ws with
  | _ :: bs, w :: r => if Nat.ltb (List.length w) BUFFER_SIZE then let* x := scan bs r in Ok (Some w :: x) else Undef
  | bs, _ => Ok bs
  end.
(** the string in a buffer; reading a buffer never written is undefined *)
Definition buf (bufs : list (option str)) (i : nat) : res str :=
  match nth i bufs None with Some s => Ok s | None => Undef end.

(** A token (token.h) as [BuildToken] (inputparser.cpp:28-33) makes it: the text, the times, the
    text of its confidence ([None]: never set) and the address of its parent segment. *)
Record ctok := { ct_text : str; ct_start : Z; ct_end : Z; ct_conf : option str; ct_parent : option nat }.
(** A segment (segment.h). *)
Record cseg := { cs_src : str; cs_chan : str; cs_start : Z; cs_end : Z; cs_first : list nat; cs_last : list nat }.

(** The variables of [loadFile] (ctm_inputparser.cpp:47-69).  Tokens and segments are numbered in
    the order they are made, which is the order of the segments in the speech too. *)
Record cst := mkC {
  c_toks : list ctok; c_segs : list cseg; c_links : links;
  c_prec : option nat; c_isfirst : bool;
  c_ptok : option nat; c_alt : option nat; c_palt : option nat;
  c_begin : bool; c_inside : bool; c_isalt : bool; c_isend : bool;
  c_useconf : bool; c_bufs : list (option str) }.
Definition no_links : links := {| nxt := fun _ => []; prc := fun _ => [] |}.
Definition start_state : cst :=
  mkC [] [] no_links None true None None None false false false false true (repeat None 6).

Definition set_toks st x := mkC x (c_segs st) (c_links st) (c_prec st) (c_isfirst st) (c_ptok st) (c_alt st) (c_palt st) (c_begin st) (c_inside st) (c_isalt st) (c_isend st) (c_useconf st) (c_bufs st).
Definition set_segs st x := mkC (c_toks st) x (c_links st) (c_prec st) (c_isfirst st) (c_ptok st) (c_alt st) (c_palt st) (c_begin st) (c_inside st) (c_isalt st) (c_isend st) (c_useconf st) (c_bufs st).
Definition set_links st x := mkC (c_toks st) (c_segs st) x (c_prec st) (c_isfirst st) (c_ptok st) (c_alt st) (c_palt st) (c_begin st) (c_inside st) (c_isalt st) (c_isend st) (c_useconf st) (c_bufs st).
Definition set_prec st x := mkC (c_toks st) (c_segs st) (c_links st) x (c_isfirst st) (c_ptok st) (c_alt st) (c_palt st) (c_begin st) (c_inside st) (c_isalt st) (c_isend st) (c_useconf st) (c_bufs st).
Definition set_isfirst st x := mkC (c_toks st) (c_segs st) (c_links st) (c_prec st) x (c_ptok st) (c_alt st) (c_palt st) (c_begin st) (c_inside st) (c_isalt st) (c_isend st) (c_useconf st) (c_bufs st).
Definition set_ptok st x := mkC (c_toks st) (c_segs st) (c_links st) (c_prec st) (c_isfirst st) x (c_alt st) (c_palt st) (c_begin st) (c_inside st) (c_isalt st) (c_isend st) (c_useconf st) (c_bufs st).
Definition set_alts st x y := mkC (c_toks st) (c_segs st) (c_links st) (c_prec st) (c_isfirst st) (c_ptok st) x y (c_begin st) (c_inside st) (c_isalt st) (c_isend st) (c_useconf st) (c_bufs st).
Definition set_flags st b i a e := mkC (c_toks st) (c_segs st) (c_links st) (c_prec st) (c_isfirst st) (c_ptok st) (c_alt st) (c_palt st) b i a e (c_useconf st) (c_bufs st).
Definition set_scan st u bs := mkC (c_toks st) (c_segs st) (c_links st) (c_prec st) (c_isfirst st) (c_ptok st) (c_alt st) (c_palt st) (c_begin st) (c_inside st) (c_isalt st) (c_isend st) u bs.

(** Reading through a pointer; NULL is undefined. *)
Definition deref {A} (l : list A) (p : option nat) : res A :=
  match p with Some i => match nth_error l i with Some x => Ok x | None => Undef end | None => Undef end.
Fixpoint put {A} (l : list A) (i : nat) (x : A) : list A :=
  match l, i with
  | [], _ => []
  | _ :: r, O => x :: r
  | a :: r, S j => a :: put r j x
  end.
Definition store_seg (st : cst) (p : option nat) (s : cseg) : cst :=
  match p with Some i => set_segs st (put (c_segs st) i s) | None => st end.

(** Segment::CreateWithDuration with SetSource, SetChannel and, further down in the program,
    AddSegment. *)
Definition new_seg (st : cst) (src chan : str) (b d : Z) : cst * nat :=
  (set_segs st (c_segs st ++ [{| cs_src := src; cs_chan := chan; cs_start := b; cs_end := b + d; cs_first := []; cs_last := [] |}]),
   List.length (c_segs st)).
(** BuildToken and, further down in the program, SetConfidence. *)
Definition new_tok (st : cst) (parent : option nat) (text : str) (b d : Z) (conf : option str) : cst * nat :=
  (set_toks st (c_toks st ++ [{| ct_text := text; ct_start := b; ct_end := b + d; ct_conf := conf; ct_parent := parent |}]),
   List.length (c_toks st)).

(** segment.cpp:184-199 [AddFirstToken], 202-217 [AddLastToken]. *)
Definition add_first (st : cst) (p t : option nat) : res cst :=
  let* s := deref (c_segs st) p in
  let* k := deref (c_toks st) t in
  if negb (ct_start k =? -1)%Z && (ct_start k <? cs_start s)%Z then Exit
  else match t with
       | Some i => Ok (store_seg st p {| cs_src := cs_src s; cs_chan := cs_chan s; cs_start := cs_start s; cs_end := cs_end s;
                                         cs_first := cs_first s ++ [i]; cs_last := cs_last s |})
       | None => Undef
       end.
Definition add_last (st : cst) (p t : option nat) : res cst :=
  let* s := deref (c_segs st) p in
  let* k := deref (c_toks st) t in
  if negb (ct_end k =? -1)%Z && (cs_end s <? ct_end k)%Z then Exit
  else match t with
       | Some i => Ok (store_seg st p {| cs_src := cs_src s; cs_chan := cs_chan s; cs_start := cs_start s; cs_end := cs_end s;
                                         cs_first := cs_first s; cs_last := cs_last s ++ [i] |})
       | None => Undef
       end.
(** if (start_ms+dur_ms > alt_seg->GetEndTime()) alt_seg->SetEndTime(start_ms+dur_ms) *)
Definition extend (st : cst) (p : option nat) (e : Z) : res cst :=
  let* s := deref (c_segs st) p in
  Ok (if (cs_end s <? e)%Z
      then store_seg st p {| cs_src := cs_src s; cs_chan := cs_chan s; cs_start := cs_start s; cs_end := e;
                             cs_first := cs_first s; cs_last := cs_last s |}
      else st).

(** p->AddNextToken(tok); tok->AddPrecToken(p) *)
Definition link (h : links) (p t : nat) : links := add_prec (add_next h p t) t p.
Definition link_from (st : cst) (p : option nat) (t : nat) : res cst :=
  match p with Some i => Ok (set_links st (link (c_links st) i t)) | None => Undef end.
(** the loop over the last tokens of a segment *)
Definition link_lasts (st : cst) (p : option nat) (t : nat) : res cst :=
  let* s := deref (c_segs st) p in
  Ok (set_links st (fold_left (fun h l => link h l t) (cs_last s) (c_links st))).

(** ctm_inputparser.cpp:129-165: the first word after <ALT_BEGIN>. *)
Definition word_begin (st : cst) (src chan text : str) (b d : Z) (conf : option str) : res cst :=
  let (st, s) := new_seg st src chan b d in
  let (st, t) := new_tok st (Some s) text b d conf in
  let* st := (if c_isfirst st then Ok st
              else if c_isend st then
                let* st := add_last st (c_alt st) (c_ptok st) in
                let* st := link_lasts st (c_alt st) t in
                Ok (set_flags st (c_begin st) (c_inside st) (c_isalt st) false)
              else link_from st (c_prec st) t) in
  let* st := add_first st (Some s) (Some t) in
  let st := set_ptok (set_isfirst st false) (Some t) in
  let st := set_alts st (Some s) (c_alt st) in
  Ok (set_flags st false (c_inside st) (c_isalt st) (c_isend st)).

(** ctm_inputparser.cpp:166-204: the first word after <ALT>. *)
Definition word_alt (st : cst) (text : str) (b d : Z) (conf : option str) : res cst :=
  let (st, t) := new_tok st (c_alt st) text b d conf in
  let* st := extend st (c_alt st) (b + d) in
  let* st := add_first st (c_alt st) (Some t) in
  let* st := (match c_palt st with
              | None => match c_prec st with Some _ => link_from st (c_prec st) t | None => Ok st end
              | Some _ => link_lasts st (c_palt st) t
              end) in
  let* st := add_last st (c_alt st) (c_ptok st) in
  let st := set_ptok st (Some t) in
  Ok (set_flags st (c_begin st) (c_inside st) false (c_isend st)).

(** ctm_inputparser.cpp:205-220: a further word of an alternative. *)
Definition word_inside (st : cst) (text : str) (b d : Z) (conf : option str) : res cst :=
  let (st, t) := new_tok st (c_alt st) text b d conf in
  let* st := extend st (c_alt st) (b + d) in
  let* st := link_from st (c_ptok st) t in
  Ok (set_ptok st (Some t)).

(** ctm_inputparser.cpp:221-249: the word after <ALT_END>. *)
Definition word_end (st : cst) (src chan text : str) (b d : Z) (conf : option str) : res cst :=
  let (st, s) := new_seg st src chan b d in
  let (st, t) := new_tok st (c_alt st) text b d conf in
  let* st := add_first st (Some s) (Some t) in
  let* st := add_last st (Some s) (Some t) in
  let* st := add_last st (c_alt st) (c_ptok st) in
  let* st := link_lasts st (c_alt st) t in
  let st := set_alts (set_ptok (set_prec st (Some t)) None) None None in
  Ok (set_flags st (c_begin st) false (c_isalt st) false).

(** ctm_inputparser.cpp:250-272: any other word. *)
Definition word_outside (st : cst) (src chan text : str) (b d : Z) (conf : option str) : res cst :=
  let (st, s) := new_seg st src chan b d in
  let (st, t) := new_tok st (Some s) text b d conf in
  let* st := add_first st (Some s) (Some t) in
  let* st := add_last st (Some s) (Some t) in
  let* st := (if c_isfirst st then Ok st else link_from st (c_prec st) t) in
  Ok (set_prec (set_isfirst st false) (Some t)).

Definition ALT_BEGIN : str := bytes "<ALT_BEGIN>".
Definition ALT_END : str := bytes "<ALT_END>".
Definition ALT : str := bytes "<ALT>".

Section Numbers.
(** inputparser.h:44 [ParseString]: a decimal number of seconds in milliseconds.  Any function
    will do; times are mathematical integers. *)
Variable ms : str -> Z.

(** ctm_inputparser.cpp:112-272: what a line does once its fields are in the buffers. *)
Definition act (st : cst) (src chan text : str) (b d : Z) (conf : option str) : res cst :=
  if str_eqb text ALT_BEGIN then Ok (set_flags st true true (c_isalt st) (c_isend st))
  else if str_eqb text ALT_END then Ok (set_flags st (c_begin st) false (c_isalt st) true)
  else if str_eqb text ALT then Ok (set_flags st (c_begin st) (c_inside st) true (c_isend st))
  else if c_begin st then word_begin st src chan text b d conf
  else if c_isalt st then word_alt st text b d conf
  else if c_inside st then word_inside st text b d conf
  else if c_isend st then word_end st src chan text b d conf
  else word_outside st src chan text b d conf.

(** A line that starts with a semicolon is a comment: find_first_of(";;") == 0. *)
Definition is_comment (line : str) : bool := match line with c :: _ => (c =? 59)%N | [] => false end.

(** ctm_inputparser.cpp:71-277, one line.  With less than five words an error is logged (the message is assumed to fit
    its buffer) and the line is used nevertheless.  The second sscanf of line 83 stores nothing the
    first one did not store, but for two temporaries.  The number of fields is -1 for a line
    without words, which is neither 5 nor 6. *)
Definition line_step (st : cst) (line : str) : res cst :=
  if is_comment line then Ok st
  else
    let ws := line_words line in
    let* bufs := scan (c_bufs st) ws in
    let n := List.length ws in
    let* b := buf bufs 2 in
    let* d := buf bufs 3 in
    let use := if Nat.eqb n 5 then false else if Nat.leb 6 n then true else c_useconf st in
    let st := set_scan st use bufs in
    let* text := buf bufs 4 in
    let* src := buf bufs 0 in
    let* chan := buf bufs 1 in
    let* conf := (if use then let* c := buf bufs 5 in Ok (Some c) else Ok None) in
    act st src chan text (ms b) (ms d) conf.

Fixpoint lines_loop (st : cst) (file : list str) : res cst :=
  match file with
  | [] => Ok st
  | l :: r => let* st := line_step st l in lines_loop st r
  end.

(** ctm_inputparser.cpp:33-291 [loadFile] of the lines getline yields.  A file without segments stops the program.  The
    program reads the confidence in the branches for words only, the model in every line; a line
    that reaches this point had five fields or comes after one that had, so that the flag is not
    set while the buffer was never written. *)
Definition load (file : list str) : res cst :=
  let* st := lines_loop start_state file in
  match c_segs st with [] => Exit | _ => Ok st end.
End Numbers.
