(** The alignment report of sclite ("-o sgml", "-p"), written and read back:
    /repo/src/sclite/scores.c [dump_SCORES_sgml], [load_SCORES_sgml], [parse_input_comment_line],
    /repo/src/sclite/sgml.c, and the scanning functions of text.c they use.

    Texts are lists of bytes without the terminator; a block of memory ([mem]) is the list of the bytes
    from a pointer to the end of the block, as in Text_Model.  Times are exact numbers of thousandths,
    confidences and weights exact numbers of millionths, which are the decimals the report has room
    for; the conversion of doubles to and from them is not modelled.  Array sizes that grow by
    themselves (groups, paths of a group, labels) are lists, see Scores_Model (C37) for the arrays;
    the counters that [add_PATH_score] keeps are those of C37 and are not repeated.  Messages are not
    modelled. *)
From Coq Require Import String Ascii.
From Coq Require Import List ZArith NArith Arith Bool.
From Verif Require Import Base Text_Model.
From Verif Require Read_Model Word_Model Scores_Model.
Import ListNotations.
Local Open Scope res_scope.
Local Open Scope list_scope.

Notation str := (list N) (only parsing).
Definition B (s : string) : str := map N_of_ascii (list_ascii_of_string s).
Definition NL : str := [10%N].
Definition QUOTE : str := [34%N].
Definition cstr (s : str) : mem := s ++ [0%N].

(** ** The structures *)
(** sctk.h PATHLABEL_ITEM, CATEGORY_ITEM *)
Record label := { lb_id : str; lb_title : str; lb_desc : str }.
(** word.h:5-24, the fields that are written *)
Record wrd := { wd_value : str; wd_tag1 : option str; wd_tag2 : option str; wd_t1 : Z; wd_t2 : Z; wd_conf : Z; wd_weight : Z }.
(** path.h:1-13; [EU] is any other value *)
Inductive ev := EC | ES | EI | ED | EM | ET | EU.
Record entry := { en_ev : ev; en_a : option wrd; en_b : option wrd }.
(** path.h:16-28, the attributes that are written *)
Record flags := { f_char : bool; f_case : bool; f_hwt : bool; f_rwt : bool; f_ht : bool; f_rt : bool;
                  f_hconf : bool; f_rconf : bool; f_hwgt : bool; f_rwgt : bool }.
(** path.h:30-53 PATH; every alignment sets [id] *)
Record rpath := { pa_id : str; pa_labels : option str; pa_file : option str; pa_channel : option str; pa_seq : Z;
                  pa_flags : flags; pa_rt1 : Z; pa_rt2 : Z; pa_ht1 : Z; pa_ht2 : Z; pa_set : list entry }.
(** sctk.h SCORES *)
Record report := { r_title : str; r_ref : option str; r_hyp : option str; r_date : option str;
                   r_frag : bool; r_opt : bool; r_wali : bool; r_wfile : option str;
                   r_labels : list label; r_cats : list label; r_grps : list (str * list rpath) }.

(** ** printf *)
(** %d of a number that is not negative *)
Fixpoint digits (fuel : nat) (n : N) : str :=
  match fuel with
  | O => []
  | S f => if (n <? 10)%N then [(48 + n)%N] else digits f (n / 10)%N ++ [(48 + n mod 10)%N]
  end.
Definition nat_text (n : N) : str := digits (S (N.size_nat n)) n.
(** %d *)
Definition int_text (z : Z) : str := (if (z <? 0)%Z then [45%N] else []) ++ nat_text (Z.abs_N z).
Fixpoint frac (k : nat) (n : N) : str := match k with O => [] | S k' => frac k' (n / 10)%N ++ [(48 + n mod 10)%N] end.
(** %.kf of a number given in units of the last decimal *)
Definition fixed (k : nat) (z : Z) : str :=
  let p := (10 ^ N.of_nat k)%N in
  (if (z <? 0)%Z then [45%N] else []) ++ nat_text (Z.abs_N z / p)%N ++ [46%N] ++ frac k (Z.abs_N z mod p)%N.
(** %s of a null pointer is undefined *)
Definition text_of (s : option str) : res str := match s with Some s => Ok s | None => Undef end.
(**  name="value" *)
Definition attr (name : string) (v : str) : str := B " " ++ B name ++ B "=" ++ QUOTE ++ v ++ QUOTE.

(** ** Writing *)
(** scores.c:139-152 in a buffer of 1000 bytes *)
Definition word_text (w : option wrd) : res str :=
  match w with
  | None => Undef
  | Some w =>
      let* s := format_word (cstr (wd_value w)) (option_map cstr (wd_tag1 w)) (option_map cstr (wd_tag2 w)) in
      if (N.of_nat (length s) <? 1000)%N then Ok s else Undef
  end.
Definition quoted (s : str) : str := QUOTE ++ s ++ QUOTE.
Definition letter (e : ev) : str :=
  match e with EC => B "C" | ES => B "S" | EI => B "I" | ED => B "D" | EM => B "M" | ET => B "T" | EU => B "U" end.
Definition ev_eqb (a b : ev) : bool :=
  match a, b with EC, EC | ES, ES | EI, EI | ED, ED | EM, EM | ET, ET | EU, EU => true | _, _ => false end.
(** scores.c:247-270 *)
Definition entry_head (asep : str) (x : entry) : res str :=
  match en_ev x with
  | EI => let* b := word_text (en_b x) in Ok (letter EI ++ asep ++ asep ++ quoted b)
  | ED => let* a := word_text (en_a x) in Ok (letter ED ++ asep ++ quoted a ++ asep)
  | e => let* a := word_text (en_a x) in
         let* b := word_text (en_b x) in
         Ok (letter e ++ asep ++ quoted a ++ asep ++ quoted b)
  end.
(** scores.c:272-327: an auxiliary value, empty where the entry has no word *)
Definition aux_text (asep : str) (on absent : bool) (w : option wrd) (f : wrd -> str) : res str :=
  if on then if absent then Ok asep else match w with Some w => Ok (asep ++ f w) | None => Undef end else Ok [].
Definition times_text (w : wrd) : str := fixed 3 (wd_t1 w) ++ B "+" ++ fixed 3 (wd_t2 w).
Definition entry_text (fl : flags) (asep : str) (x : entry) : res str :=
  let ins := ev_eqb (en_ev x) EI in
  let del := ev_eqb (en_ev x) ED in
  let* h := entry_head asep x in
  let* a1 := aux_text asep (f_rwt fl) ins (en_a x) times_text in
  let* a2 := aux_text asep (f_hwt fl) del (en_b x) times_text in
  let* a3 := aux_text asep (f_rconf fl) ins (en_a x) (fun w => fixed 6 (wd_conf w)) in
  let* a4 := aux_text asep (f_hconf fl) del (en_b x) (fun w => fixed 6 (wd_conf w)) in
  let* a5 := aux_text asep (f_rwgt fl) ins (en_a x) (fun w => fixed 6 (wd_weight w)) in
  let* a6 := aux_text asep (f_hwgt fl) del (en_b x) (fun w => fixed 6 (wd_weight w)) in
  Ok (h ++ a1 ++ a2 ++ a3 ++ a4 ++ a5 ++ a6).
(** scores.c:246-329 *)
Fixpoint entries_text (fl : flags) (tsep asep : str) (l : list entry) : res str :=
  match l with
  | [] => Ok []
  | [x] => entry_text fl asep x
  | x :: r => let* t := entry_text fl asep x in let* u := entries_text fl tsep asep r in Ok (t ++ tsep ++ u)
  end.
(** scores.c:207-236, the value of word_aux *)
Definition aux_names (fl : flags) : list str :=
  (if f_rwt fl then [B "r_t1+t2"] else []) ++ (if f_hwt fl then [B "h_t1+t2"] else [])
  ++ (if f_rconf fl then [B "r_conf"] else []) ++ (if f_hconf fl then [B "h_conf"] else [])
  ++ (if f_rwgt fl then [B "r_weight"] else []) ++ (if f_hwgt fl then [B "h_weight"] else []).
Fixpoint commas (l : list str) : str :=
  match l with [] => [] | [s] => s | s :: r => s ++ B "," ++ commas r end.
Definition opt_attr (name : string) (s : option str) : str := match s with Some s => attr name s | None => [] end.
Definition flag_attr (on : bool) (name : string) (v : str) : str := if on then attr name v else [].
(** scores.c:180-239, the tag of a path.  The test for PA_NONE changes nothing. *)
Definition path_tag (p : rpath) : str :=
  let fl := pa_flags p in
  B "<PATH" ++ attr "id" (pa_id p) ++ attr "word_cnt" (int_text (Z.of_nat (length (pa_set p))))
  ++ opt_attr "labels" (pa_labels p) ++ opt_attr "file" (pa_file p) ++ opt_attr "channel" (pa_channel p)
  ++ attr "sequence" (int_text (pa_seq p))
  ++ flag_attr (f_rt fl) "R_T1" (fixed 3 (pa_rt1 p)) ++ flag_attr (f_rt fl) "R_T2" (fixed 3 (pa_rt2 p))
  ++ flag_attr (f_ht fl) "H_T1" (fixed 3 (pa_ht1 p)) ++ flag_attr (f_ht fl) "H_T2" (fixed 3 (pa_ht2 p))
  ++ flag_attr (f_char fl) "char_align" (B "1") ++ flag_attr (f_case fl) "case_sense" (B "1")
  ++ flag_attr (f_hwgt fl) "hyp_weight" (B "1") ++ flag_attr (f_rwgt fl) "ref_weight" (B "1")
  ++ flag_attr (match aux_names fl with [] => false | _ => true end) "word_aux" (commas (aux_names fl))
  ++ B ">" ++ NL.
Definition path_text (tsep asep : str) (p : rpath) : res str :=
  let* t := entries_text (pa_flags p) tsep asep (pa_set p) in
  Ok (path_tag p ++ t ++ NL ++ B "</PATH>" ++ NL).
Fixpoint paths_text (tsep asep : str) (l : list rpath) : res str :=
  match l with
  | [] => Ok []
  | p :: r => let* t := path_text tsep asep p in let* u := paths_text tsep asep r in Ok (t ++ u)
  end.
(** scores.c:175-333 *)
Fixpoint grps_text (tsep asep : str) (l : list (str * list rpath)) : res str :=
  match l with
  | [] => Ok []
  | (n, ps) :: r =>
      let* t := paths_text tsep asep ps in
      let* u := grps_text tsep asep r in
      Ok (B "<SPEAKER" ++ attr "id" n ++ B ">" ++ NL ++ t ++ B "</SPEAKER>" ++ NL ++ u)
  end.
(** scores.c:170-182 *)
Definition label_text (name : string) (l : label) : str :=
  B "<" ++ B name ++ attr "id" (lb_id l) ++ attr "title" (lb_title l) ++ attr "desc" (lb_desc l) ++ B ">" ++ NL
  ++ B "</" ++ B name ++ B ">" ++ NL.
Definition truth (b : bool) : str := if b then B "TRUE" else B "FALSE".
(** scores.c:154-337 [dump_SCORES_sgml] *)
Definition dump (tsep asep : str) (r : report) : res str :=
  let* f := text_of (r_ref r) in
  let* h := text_of (r_hyp r) in
  let* d := text_of (r_date r) in
  let* w := (if r_wali r then text_of (r_wfile r) else Ok []) in
  let* g := grps_text tsep asep (r_grps r) in
  Ok (B "<SYSTEM" ++ attr "title" (r_title r) ++ attr "ref_fname" f ++ attr "hyp_fname" h ++ attr "creation_date" d
      ++ attr "format" (B "2.4") ++ attr "frag_corr" (truth (r_frag r)) ++ attr "opt_del" (truth (r_opt r))
      ++ attr "weight_ali" (truth (r_wali r)) ++ attr "weight_filename" w ++ B ">" ++ NL
      ++ concat (map (label_text "LABEL") (r_labels r)) ++ concat (map (label_text "CATEGORY") (r_cats r))
      ++ g ++ B "</SYSTEM>" ++ NL).
(** sclite.c:344: the report "-o sgml"; sclite.c:355, 375: "-o nl.sgml" and the pipe "-p" *)
Definition sgml_report : report -> res str := dump (B ":") (B ",").
Definition piped_report : report -> res str := dump NL NL.
(** several systems one after the other, as in sclite.c:373-375 *)
Fixpoint dumps (d : report -> res str) (l : list report) : res str :=
  match l with [] => Ok [] | r :: l' => let* t := d r in let* u := dumps d l' in Ok (t ++ u) end.

(** ** Scanning *)
(** strchr for a byte other than 0: the distance *)
Fixpoint strchr (m : mem) (c : N) : res (option nat) :=
  match m with
  | [] => Undef
  | b :: r => if (b =? c)%N then Ok (Some 0) else if (b =? 0)%N then Ok None
              else let* k := strchr r c in Ok (option_map S k)
  end.
Definition in_set (set : str) (b : N) : bool := existsb (N.eqb b) set.
(** text.c:1484-1506 [TEXT_strspn] *)
Fixpoint strspn (e : enc) (set : str) (m : mem) : res nat :=
  match m with
  | [] => Undef
  | b :: r =>
      if (b =? 0)%N then Ok 0
      else let* k := nbytes e m in
           if 1 <? k then Ok 0
           else if in_set set b then let* n := strspn e set r in Ok (S n) else Ok 0
  end.
(** text.c:1511-1537 [TEXT_strcspn] *)
Fixpoint strcspn_loop (fuel : nat) (e : enc) (set : str) (m : mem) : res nat :=
  match fuel with
  | O => NoFuel
  | S f =>
      let* b := rd m in
      if (b =? 0)%N then Ok 0
      else let* k := nbytes e m in
           if 1 <? k then let* m' := adv k m in let* n := strcspn_loop f e set m' in Ok (k + n)
           else if in_set set b then Ok 0
           else let* n := strcspn_loop f e set (tl m) in Ok (S n)
  end.
Definition strcspn (e : enc) (set : str) (m : mem) : res nat := strcspn_loop (S (length m)) e set m.
(** text.c:707-714 [TEXT_strBdup]: the string copied *)
Fixpoint bdup (m : mem) (n : nat) {struct n} : res str :=
  match n with
  | O => Ok []
  | S n' => match m with
            | [] => Undef
            | b :: r => if (b =? 0)%N then Ok [] else let* s := bdup r n' in Ok (b :: s)
            end
  end.
(** [TEXT_strcmp] = 0 with strings that have their own blocks *)
Definition teq (e : enc) (a b : str) : res bool := let* z := strcmp e (cstr a) (cstr b) in Ok (z =? 0)%Z.

(** text.c:1581-1598: the distance to the end of the token *)
Fixpoint qscan (fuel : nat) (e : enc) (set : str) (m : mem) : res nat :=
  match fuel with
  | O => NoFuel
  | S f =>
      let* b := rd m in
      if (b =? 0)%N then Ok 0
      else let* k := nbytes e m in
           if 1 <? k then let* m' := adv k m in let* n := qscan f e set m' in Ok (k + n)
           else if (b =? 34)%N then
             let* q := strchr (tl m) 34 in
             match q with
             | Some j => let* m' := adv (j + 2) m in let* n := qscan f e set m' in Ok (j + 2 + n)
             | None => let* l := strlen m in let* m' := adv l m in let* n := qscan f e set m' in Ok (l + n)
             end
           else if in_set set b then Ok 0
           else let* n := qscan f e set (tl m) in Ok (S n)
  end.
(** text.c:1540-1608 [TEXT_strqtok]: [m] is the memory from [ptr], [T] the buffer [token].  The token
    (with what earlier tokens left behind its terminator) and the new [ptr]. *)
Definition strqtok (e : enc) (set : str) (m T : mem) : res (option (mem * mem)) :=
  let* s := strspn e set m in
  let* m := adv s m in
  let* b := rd m in
  if (b =? 0)%N then Ok None
  else let* n := qscan (S (length m)) e set m in
       let* t := (if n <=? length m then Ok (firstn n m) else Undef) in
       let* T' := (if n <? length T then Ok (t ++ 0%N :: skipn (S n) T) else Undef) in
       let* r := adv n m in
       let* c := rd r in
       Ok (Some (T', if (c =? 0)%N then r else tl r)).
(** text.c:1549-1569: the buffers of a line; they are given back at the end of the line *)
Definition token_buffer (line : str) : mem :=
  repeat 0%N (if 99 <? length line then length line + 20 else 100).

(** ** Numbers *)
Definition isdigit (c : N) : bool := ((48 <=? c) && (c <=? 57))%N.
Definition isalpha (c : N) : bool := (((65 <=? c) && (c <=? 90)) || ((97 <=? c) && (c <=? 122)))%N.
Fixpoint skip_space (s : str) : str := match s with c :: r => if isspace c then skip_space r else s | [] => [] end.
Fixpoint take_digits (s : str) (acc : N) (n : nat) : N * nat * str :=
  match s with
  | c :: r => if isdigit c then take_digits r (acc * 10 + (c - 48))%N (S n) else (acc, n, s)
  | [] => (acc, n, [])
  end.
Definition sign (s : str) : bool * str :=
  match s with c :: r => if (c =? 45)%N then (true, r) else if (c =? 43)%N then (false, r) else (false, s) | [] => (false, s) end.
Definition signed (neg : bool) (n : N) : Z := if neg then (- Z.of_N n)%Z else Z.of_N n.
(** atof: the number and its count of decimals.  Exponents, hexadecimal numbers, infinity and nan are
    not modelled: a letter after the number is undefined here. *)
Definition atof (s : str) : res (Z * nat) :=
  let (neg, s) := sign (skip_space s) in
  let '(a, _, s1) := take_digits s 0 0 in
  let '(a, d, s2) := (match s1 with c :: r => if (c =? 46)%N then take_digits r a 0 else (a, 0, s1) | [] => (a, 0, s1) end) in
  match s2 with
  | c :: _ => if isalpha c then Undef else Ok (signed neg a, d)
  | [] => Ok (signed neg a, d)
  end.
(** in units of the [k]-th decimal; more decimals are not modelled *)
Definition atof_in (k : nat) (s : str) : res Z :=
  let* (z, d) := atof s in
  if d <=? k then Ok (z * 10 ^ Z.of_nat (k - d))%Z else Undef.
Definition atoi (s : str) : Z :=
  let (neg, s) := sign (skip_space s) in let '(a, _, _) := take_digits s 0 0 in signed neg a.

(** ** Tags, sgml.c *)
Definition tag := (str * list (str * str))%type.
(** sgml.c:70-85; 30 is MAX_ATTRIB *)
Fixpoint attribs (fuel : nat) (e : enc) (b : mem) (acc : list (str * str)) : res (option (list (str * str))) :=
  match fuel with
  | O => NoFuel
  | S f =>
      let* c := rd b in
      if (c =? 0)%N then Ok (Some acc)
      else
        let* n := strspn e (B " " ++ [9%N] ++ NL) b in
        let* b := adv n b in
        let* l := strcspn e (B "=" ++ NL) b in
        if l =? 0 then Ok None
        else if 30 <=? length acc then Undef
        else
          let* name := bdup b l in
          let* b := adv (l + 1) b in
          let* q := rd b in
          let* b := adv 1 b in
          if negb (q =? 34)%N then Ok None
          else
            let* l := strcspn e QUOTE b in
            let* q := rd b in
            if (l =? 0) && negb (q =? 34)%N then Ok None
            else
              let* v := bdup b l in
              let* b := adv (l + 1) b in
              let* n := strspn e (B " " ++ [9%N] ++ NL ++ B ">") b in
              let* b := adv n b in
              attribs f e b (acc ++ [(name, v)])
  end.
(** sgml.c:51-88 [add_SGML_tag]; the stack of tags has its top first, [None] is the result 0 *)
Definition add_tag (e : enc) (tags : list tag) (buf : mem) : res (option (list tag)) :=
  if 10 <=? length tags then Exit
  else
    let* b := adv 1 buf in
    let* p := strchr b 32 in
    match p with
    | None => Ok None
    | Some p =>
        let* name := bdup b p in
        let* b := adv (p + 1) b in
        let* a := attribs (S (length b)) e b [] in
        match a with None => Ok None | Some l => Ok (Some ((name, l) :: tags)) end
    end.
(** sgml.c:31-49 [delete_SGML_tag]: the name of the tag that is closed *)
Definition delete_tag (tags : list tag) (buf : mem) : res (option (str * list tag)) :=
  match tags with
  | [] => Ok None
  | (name, _) :: r =>
      let* b := adv 1 buf in
      let* c := rd b in
      if negb (c =? 47)%N then Ok None
      else
        let* b := adv 1 b in
        let* p := strchr b 62 in
        match p with
        | None => Ok None
        | Some n => if (Word_Model.strncmp name (firstn n b) n =? 0)%Z then Ok (Some (name, r)) else Ok None
        end
  end.
(** sgml.c:20-29 [get_SGML_attrib] *)
Fixpoint get_attrib (e : enc) (l : list (str * str)) (name : str) : res str :=
  match l with
  | [] => Ok []
  | (n, v) :: r => let* same := teq e n name in if same : bool then Ok v else get_attrib e r name
  end.

(** ** Labels, scores.c:887-993 [parse_input_comment_line] *)
(** the text between the next two quotes, and what follows *)
Definition next_quoted (m : mem) : res (option (str * mem)) :=
  let* bq := strchr m 34 in
  match bq with
  | None => Ok None
  | Some i =>
      let* m1 := adv (i + 1) m in
      let* eq := strchr m1 34 in
      match eq with
      | None => Ok None
      | Some j => let* s := bdup m1 j in let* m2 := adv (j + 1) m1 in Ok (Some (s, m2))
      end
  end.
Definition same_label (e : enc) (a b : label) : res bool :=
  let* i := teq e (lb_id a) (lb_id b) in
  if negb i then Ok false else
  let* t := teq e (lb_title a) (lb_title b) in
  if negb t then Ok false else teq e (lb_desc a) (lb_desc b).
(** scores.c:924-933: the label is new *)
Fixpoint is_new (e : enc) (x : label) (l : list label) : res bool :=
  match l with
  | [] => Ok true
  | y :: r => let* s := same_label e x y in let* n := is_new e x r in Ok (negb s && n)
  end.
Definition add_label (e : enc) (l : list label) (buf : mem) : res (list label) :=
  let* q1 := next_quoted buf in
  match q1 with
  | None => Ok l
  | Some (i, m) =>
      let* q2 := next_quoted m in
      match q2 with
      | None => Ok l
      | Some (t, m) =>
          let* q3 := next_quoted m in
          match q3 with
          | None => Ok l
          | Some (d, _) =>
              let x := {| lb_id := i; lb_title := t; lb_desc := d |} in
              let* n := is_new e x l in
              Ok (if n : bool then l ++ [x] else l)
          end
      end
  end.
(** text.c:1404-1416 *)
Definition is_comment (buf : mem) : res bool :=
  let* a := rd buf in
  if negb (a =? 59)%N then Ok false else let* m := adv 1 buf in let* b := rd m in Ok (b =? 59)%N.
(** The labels and categories after the line, and whether the line is a comment. *)
Definition comment_line (e : enc) (labels cats : list label) (buf : mem) : res (bool * list label * list label) :=
  let* c := is_comment buf in
  if negb c then Ok (false, labels, cats)
  else
    let* l := strccmp e buf (cstr (B ";; LABEL ")) 9 in
    if (l =? 0)%Z then let* labels := add_label e labels buf in Ok (true, labels, cats)
    else
      let* k := strccmp e buf (cstr (B ";; CATEGORY ")) 12 in
      if (k =? 0)%Z then let* cats := add_label e cats buf in Ok (true, labels, cats)
      else Ok (true, labels, cats).

(** ** Reading *)
Inductive aux := ART | AHT | ARC | AHC | ARW | AHW | ASPKR | AISSUB.
Definition no_flags : flags :=
  {| f_char := false; f_case := false; f_hwt := false; f_rwt := false; f_ht := false; f_rt := false;
     f_hconf := false; f_rconf := false; f_hwgt := false; f_rwgt := false |}.
Definition set_rwt (f : flags) := {| f_char := f_char f; f_case := f_case f; f_hwt := f_hwt f; f_rwt := true; f_ht := f_ht f; f_rt := f_rt f;
     f_hconf := f_hconf f; f_rconf := f_rconf f; f_hwgt := f_hwgt f; f_rwgt := f_rwgt f |}.
Definition set_hwt (f : flags) := {| f_char := f_char f; f_case := f_case f; f_hwt := true; f_rwt := f_rwt f; f_ht := f_ht f; f_rt := f_rt f;
     f_hconf := f_hconf f; f_rconf := f_rconf f; f_hwgt := f_hwgt f; f_rwgt := f_rwgt f |}.
Definition set_rconf (f : flags) := {| f_char := f_char f; f_case := f_case f; f_hwt := f_hwt f; f_rwt := f_rwt f; f_ht := f_ht f; f_rt := f_rt f;
     f_hconf := f_hconf f; f_rconf := true; f_hwgt := f_hwgt f; f_rwgt := f_rwgt f |}.
Definition set_hconf (f : flags) := {| f_char := f_char f; f_case := f_case f; f_hwt := f_hwt f; f_rwt := f_rwt f; f_ht := f_ht f; f_rt := f_rt f;
     f_hconf := true; f_rconf := f_rconf f; f_hwgt := f_hwgt f; f_rwgt := f_rwgt f |}.
Definition set_rwgt (f : flags) := {| f_char := f_char f; f_case := f_case f; f_hwt := f_hwt f; f_rwt := f_rwt f; f_ht := f_ht f; f_rt := f_rt f;
     f_hconf := f_hconf f; f_rconf := f_rconf f; f_hwgt := f_hwgt f; f_rwgt := true |}.
Definition set_hwgt (f : flags) := {| f_char := f_char f; f_case := f_case f; f_hwt := f_hwt f; f_rwt := f_rwt f; f_ht := f_ht f; f_rt := f_rt f;
     f_hconf := f_hconf f; f_rconf := f_rconf f; f_hwgt := true; f_rwgt := f_rwgt f |}.

Definition starts (e : enc) (m : mem) (s : string) (n : Z) : res bool :=
  let* z := strccmp e m (cstr (B s)) n in Ok (z =? 0)%Z.
(** scores.c:494-520, one item of word_aux; an unknown item only warns *)
Definition aux_item (e : enc) (tp : mem) (fl : flags) : res (flags * list aux) :=
  let* a := starts e tp "r_t1+t2" 7 in if a : bool then Ok (set_rwt fl, [ART]) else
  let* a := starts e tp "h_t1+t2" 7 in if a : bool then Ok (set_hwt fl, [AHT]) else
  let* a := starts e tp "r_conf" 6 in if a : bool then Ok (set_rconf fl, [ARC]) else
  let* a := starts e tp "h_conf" 6 in if a : bool then Ok (set_hconf fl, [AHC]) else
  let* a := starts e tp "r_weight" 8 in if a : bool then Ok (set_rwgt fl, [ARW]) else
  let* a := starts e tp "h_weight" 8 in if a : bool then Ok (set_hwgt fl, [AHW]) else
  let* a := starts e tp "h_spkr" 6 in if a : bool then Ok (fl, [ASPKR]) else
  let* a := starts e tp "h_isSpkrSub" 11 in if a : bool then Ok (fl, [AISSUB]) else Ok (fl, []).
(** scores.c:482-523; 50 is max_word_aux *)
Fixpoint aux_loop (fuel : nat) (e : enc) (tp : mem) (fl : flags) (fields : list aux) : res (flags * list aux) :=
  match fuel with
  | O => NoFuel
  | S f =>
      let* c := rd tp in
      if (c =? 0)%N then Ok (fl, fields)
      else if length fields =? 50 then Exit
      else
        let* k := strchr tp 44 in
        let* n := (match k with Some n => Ok n | None => strlen tp end) in
        let* (fl, a) := aux_item e tp fl in
        let* tp := adv n tp in
        let* d := rd tp in
        aux_loop f e (if (d =? 44)%N then tl tp else tp) fl (fields ++ a)
  end.

(** A path that is being read: PATH_alloc gives it room for [o_max] entries. *)
Record opath := { o_path : rpath; o_max : nat }.
(** [tscor] is [s_cur]: the systems finished and the open one make up the array; [s_spk] is [spk],
    [s_fields] are word_aux_fields and num_word_aux *)
Record state := { s_tags : list tag; s_done : list report; s_cur : option report; s_spk : option nat;
                  s_path : option opath; s_fields : list aux }.
Definition nonempty (s : str) : option str := match s with [] => None | _ => Some s end.

(** scores.c:366-419 *)
Definition begin_system (e : enc) (at_ : list (str * str)) : res report :=
  let* title := get_attrib e at_ (B "title") in
  let* f := get_attrib e at_ (B "ref_fname") in
  let* fe := teq e f [] in
  let* h := get_attrib e at_ (B "hyp_fname") in
  let* he := teq e h [] in
  let* d := get_attrib e at_ (B "creation_date") in
  let* de := teq e d [] in
  let* fc := get_attrib e at_ (B "frag_corr") in
  let* fc := teq e fc (B "TRUE") in
  let* od := get_attrib e at_ (B "opt_del") in
  let* od := teq e od (B "TRUE") in
  let* wa := get_attrib e at_ (B "weight_ali") in
  let* wa := teq e wa (B "TRUE") in
  let* wf := get_attrib e at_ (B "weight_filename") in
  Ok {| r_title := title; r_ref := if fe : bool then None else Some f; r_hyp := if he : bool then None else Some h;
        r_date := if de : bool then None else Some d;
        r_frag := fc; r_opt := od; r_wali := wa; r_wfile := if wa : bool then Some wf else None;
        r_labels := []; r_cats := []; r_grps := [] |}.

(** scores.c:759-801 [SCORES_get_grp] *)
Fixpoint find_grp (gs : list (str * list rpath)) (name : str) : option nat :=
  match gs with
  | [] => None
  | (n, _) :: r => if Scores_Model.same name n then Some 0 else option_map S (find_grp r name)
  end.
Definition with_grps (r : report) (gs : list (str * list rpath)) : report :=
  {| r_title := r_title r; r_ref := r_ref r; r_hyp := r_hyp r; r_date := r_date r; r_frag := r_frag r; r_opt := r_opt r;
     r_wali := r_wali r; r_wfile := r_wfile r; r_labels := r_labels r; r_cats := r_cats r; r_grps := gs |}.
Definition with_labels (r : report) (ls cs : list label) : report :=
  {| r_title := r_title r; r_ref := r_ref r; r_hyp := r_hyp r; r_date := r_date r; r_frag := r_frag r; r_opt := r_opt r;
     r_wali := r_wali r; r_wfile := r_wfile r; r_labels := ls; r_cats := cs; r_grps := r_grps r |}.
Definition get_grp (r : report) (name : str) : report * nat :=
  match find_grp (r_grps r) name with
  | Some i => (r, i)
  | None => (with_grps r (r_grps r ++ [(name, [])]), length (r_grps r))
  end.
(** scores.c:1012-1052 [add_PATH_score], the part that keeps the path *)
Fixpoint add_path (gs : list (str * list rpath)) (i : nat) (p : rpath) : res (list (str * list rpath)) :=
  match gs, i with
  | [], _ => Undef
  | (n, ps) :: r, O => Ok ((n, ps ++ [p]) :: r)
  | g :: r, S i' => let* r' := add_path r i' p in Ok (g :: r')
  end.

(** scores.c:437-524 *)
Definition time_attr (e : enc) (at_ : list (str * str)) (name : string) : res (option Z) :=
  let* l := get_attrib e at_ (B name) in
  let* em := teq e l [] in
  if em : bool then Ok None else let* z := atof_in 3 l in Ok (Some z).
Definition given (e : enc) (at_ : list (str * str)) (name : string) : res bool :=
  let* l := get_attrib e at_ (B name) in
  let* em := teq e l [] in Ok (negb em).
Definition opt_text (e : enc) (at_ : list (str * str)) (name : string) : res (option str) :=
  let* l := get_attrib e at_ (B name) in
  let* em := teq e l [] in Ok (if em : bool then None else Some l).
Definition or0 (z : option Z) : Z := match z with Some z => z | None => 0%Z end.
Definition some (z : option Z) : bool := match z with Some _ => true | None => false end.
Definition begin_path (e : enc) (at_ : list (str * str)) (fields : list aux) : res (opath * list aux) :=
  let* c := get_attrib e at_ (B "word_cnt") in
  let* cnt := atof_in 0 c in
  let* labels := opt_text e at_ "labels" in
  let* id := get_attrib e at_ (B "id") in
  let* file := opt_text e at_ "file" in
  let* chan := opt_text e at_ "channel" in
  let* s := opt_text e at_ "sequence" in
  let* rt1 := time_attr e at_ "R_T1" in
  let* rt2 := time_attr e at_ "R_T2" in
  let* ht1 := time_attr e at_ "H_T1" in
  let* ht2 := time_attr e at_ "H_T2" in
  let* ca := given e at_ "char_align" in
  let* cs := given e at_ "case_sense" in
  let* hw := given e at_ "hyp_weight" in
  let* rw := given e at_ "ref_weight" in
  let* wa := get_attrib e at_ (B "word_aux") in
  let fl := {| f_char := ca; f_case := cs; f_hwt := false; f_rwt := false; f_ht := some ht1 || some ht2; f_rt := some rt1 || some rt2;
               f_hconf := false; f_rconf := false; f_hwgt := hw; f_rwgt := rw |} in
  let* we := teq e wa [] in
  let* (fl, fields) := (if we : bool then Ok (fl, fields) else aux_loop (S (length wa)) e (cstr wa) fl []) in
  Ok ({| o_path := {| pa_id := id; pa_labels := labels; pa_file := file; pa_channel := chan;
                      pa_seq := match s with Some s => atoi s | None => (-1)%Z end;
                      pa_flags := fl; pa_rt1 := or0 rt1; pa_rt2 := or0 rt2; pa_ht1 := or0 ht1; pa_ht2 := or0 ht2; pa_set := [] |};
         o_max := Z.to_nat (if (cnt <? 4)%Z then 5 else cnt) |}, fields).

(** scores.c:572-582, the evaluation of an entry *)
Definition read_ev (c : N) : option ev :=
  if (c =? 73)%N then Some EI else if (c =? 68)%N then Some ED else if (c =? 83)%N then Some ES
  else if (c =? 67)%N then Some EC else if (c =? 77)%N then Some EM else if (c =? 84)%N then Some ET else None.
(** scores.c:584-595; the weight -1 is given in units *)
Definition new_wrd : wrd :=
  {| wd_value := []; wd_tag1 := None; wd_tag2 := None; wd_t1 := 0; wd_t2 := 0; wd_conf := 0; wd_weight := (-1000000)%Z |}.
Definition set_value (w : wrd) (v : str) : wrd :=
  {| wd_value := v; wd_tag1 := wd_tag1 w; wd_tag2 := wd_tag2 w; wd_t1 := wd_t1 w; wd_t2 := wd_t2 w; wd_conf := wd_conf w; wd_weight := wd_weight w |}.
Definition set_times (w : wrd) (a b : Z) : wrd :=
  {| wd_value := wd_value w; wd_tag1 := wd_tag1 w; wd_tag2 := wd_tag2 w; wd_t1 := a; wd_t2 := b; wd_conf := wd_conf w; wd_weight := wd_weight w |}.
Definition set_conf (w : wrd) (c : Z) : wrd :=
  {| wd_value := wd_value w; wd_tag1 := wd_tag1 w; wd_tag2 := wd_tag2 w; wd_t1 := wd_t1 w; wd_t2 := wd_t2 w; wd_conf := c; wd_weight := wd_weight w |}.
Definition set_weight (w : wrd) (c : Z) : wrd :=
  {| wd_value := wd_value w; wd_tag1 := wd_tag1 w; wd_tag2 := wd_tag2 w; wd_t1 := wd_t1 w; wd_t2 := wd_t2 w; wd_conf := wd_conf w; wd_weight := c |}.
Definition upd_a (x : entry) (f : wrd -> wrd) : entry := {| en_ev := en_ev x; en_a := option_map f (en_a x); en_b := en_b x |}.
Definition upd_b (x : entry) (f : wrd -> wrd) : entry := {| en_ev := en_ev x; en_a := en_a x; en_b := option_map f (en_b x) |}.

(** scores.c:609-616, 627-632: the word in quotes after the byte at [p1], and the pointer after it *)
Definition quoted_word (p1 : mem) : res (str * mem) :=
  let* m := adv 1 p1 in
  let* c := rd m in
  if negb (c =? 34)%N then Exit
  else
    let* m := adv 1 m in
    let* q := strchr m 34 in
    match q with
    | None => Undef
    | Some n => let* v := bdup m n in let* p1 := adv (n + 1) m in Ok (v, p1)
    end.
(** scores.c:662-674: two times around a plus sign.  [c] is the byte at [p1], [item] what follows up to
    the next comma; without plus sign the null pointer is followed. *)
Fixpoint index (s : str) (c : N) : option nat :=
  match s with [] => None | b :: r => if (b =? c)%N then Some 0 else option_map S (index r c) end.
Definition read_times (c : N) (item : str) : res (Z * Z) :=
  match index (c :: item) 43 with
  | None => Undef
  | Some j =>
      let* a := atof_in 3 (match j with O => item | S i => firstn i item end) in
      let* b := atof_in 3 (skipn j item) in
      Ok (a, b)
  end.
(** scores.c:658-722, one value *)
Definition aux_value (a : aux) (c : N) (item : str) (x : entry) : res entry :=
  match a with
  | ART => if ev_eqb (en_ev x) EI then Ok x else let* (t1, t2) := read_times c item in Ok (upd_a x (fun w => set_times w t1 t2))
  | AHT => if ev_eqb (en_ev x) ED then Ok x else let* (t1, t2) := read_times c item in Ok (upd_b x (fun w => set_times w t1 t2))
  | ARC => if ev_eqb (en_ev x) EI then Ok x else let* z := atof_in 6 item in Ok (upd_a x (fun w => set_conf w z))
  | AHC => if ev_eqb (en_ev x) ED then Ok x else let* z := atof_in 6 item in Ok (upd_b x (fun w => set_conf w z))
  | ARW => if ev_eqb (en_ev x) EI then Ok x else let* z := atof_in 6 item in Ok (upd_a x (fun w => set_weight w z))
  | AHW => if ev_eqb (en_ev x) ED then Ok x else let* z := atof_in 6 item in Ok (upd_b x (fun w => set_weight w z))
  | ASPKR | AISSUB => Ok x
  end.
(** scores.c:643-730; a value beyond the fields of the path reads an unset cell of the array (or one
    left by an earlier path, which is not modelled) *)
Fixpoint aux_values (fuel : nat) (p1 : mem) (fields : list aux) (x : entry) : res entry :=
  match fuel with
  | O => NoFuel
  | S f =>
      let* c := rd p1 in
      if (c =? 0)%N then Ok x
      else
        let* k := strchr (tl p1) 44 in
        let* n := (match k with Some n => Ok n | None => strlen (tl p1) end) in
        let* m := adv n (tl p1) in
        match n with
        | O => aux_values f m (tl fields) x
        | _ => match fields with
               | [] => Undef
               | a :: r => let* x := aux_value a c (firstn n (tl p1)) x in aux_values f m r x
               end
        end
  end.
(** scores.c:568-733, one token; the branches that give up are [Exit] as both callers then exit *)
Definition read_entry (T : mem) (fields : list aux) : res entry :=
  let* c := rd T in
  match read_ev c with
  | None => Exit
  | Some v =>
      let* p1 := adv 1 T in
      let* (a, p1) :=
        (match v with
         | EI => let* m := adv 1 p1 in let* c := rd m in if negb (c =? 44)%N then Exit else Ok (None, m)
         | _ => let* (s, p1) := quoted_word p1 in Ok (Some (set_value new_wrd s), p1)
         end) in
      let* (b, p1) :=
        (match v with
         | ED => let* m := adv 1 p1 in let* c := rd m in
                 if negb (c =? 44)%N && negb (c =? 0)%N then Exit else Ok (None, m)
         | _ => let* (s, p1) := quoted_word p1 in Ok (Some (set_value new_wrd s), p1)
         end) in
      let x := {| en_ev := v; en_a := a; en_b := b |} in
      match fields with [] => Ok x | _ => aux_values (S (length p1)) p1 fields x end
  end.
(** scores.c:566-735; a path has no room for more entries than its word count says *)
Definition push (o : opath) (x : entry) : res opath :=
  let p := o_path o in
  if length (pa_set p) <? o_max o then
    Ok {| o_path := {| pa_id := pa_id p; pa_labels := pa_labels p; pa_file := pa_file p; pa_channel := pa_channel p;
                       pa_seq := pa_seq p; pa_flags := pa_flags p; pa_rt1 := pa_rt1 p; pa_rt2 := pa_rt2 p;
                       pa_ht1 := pa_ht1 p; pa_ht2 := pa_ht2 p; pa_set := pa_set p ++ [x] |}; o_max := o_max o |}
  else Undef.
Fixpoint read_data (fuel : nat) (e : enc) (m T : mem) (fields : list aux) (o : opath) : res opath :=
  match fuel with
  | O => NoFuel
  | S f =>
      let* t := strqtok e (B ":" ++ NL) m T in
      match t with
      | None => Ok o
      | Some (T, m) =>
          let* x := read_entry T fields in
          let* o := push o x in
          read_data f e m T fields o
      end
  end.

(** scores.c:525-541: a label is handed on as a comment line, in a buffer of 10000 bytes *)
Definition read_label (e : enc) (name : str) (at_ : list (str * str)) (r : report) : res report :=
  let* i := get_attrib e at_ (B "id") in
  let* t := get_attrib e at_ (B "title") in
  let* d := get_attrib e at_ (B "desc") in
  let line := B ";; " ++ name ++ attr "id" i ++ attr "title" t ++ attr "desc" d ++ NL in
  if (N.of_nat (length line) <? 10000)%N then
    let* (x, cs) := comment_line e (r_labels r) (r_cats r) (cstr line) in
    Ok (with_labels r (snd x) cs)
  else Undef.

(** scores.c:356-541 *)
Definition begin_tag (e : enc) (maxn : nat) (st : state) (buf : mem) : res state :=
  let* t := add_tag e (s_tags st) buf in
  match t with
  | None | Some [] => Exit
  | Some (((name, at_) :: _) as tags) =>
      let st := {| s_tags := tags; s_done := s_done st; s_cur := s_cur st; s_spk := s_spk st; s_path := s_path st; s_fields := s_fields st |} in
      let* sys := teq e name (B "SYSTEM") in
      if sys : bool then
        let scor := s_done st ++ match s_cur st with Some r => [r] | None => [] end in
        if maxn <=? length scor then Exit else
        let* r := begin_system e at_ in
        Ok {| s_tags := tags; s_done := scor; s_cur := Some r; s_spk := None; s_path := s_path st; s_fields := s_fields st |}
      else
        let* spk := teq e name (B "SPEAKER") in
        if spk : bool then
          match s_cur st with
          | None => Exit
          | Some r =>
              let* id := get_attrib e at_ (B "id") in
              let (r, i) := get_grp r id in
              Ok {| s_tags := tags; s_done := s_done st; s_cur := Some r; s_spk := Some i; s_path := s_path st; s_fields := s_fields st |}
          end
        else
          let* pat := teq e name (B "PATH") in
          if pat : bool then
            match s_spk st with
            | None => Exit
            | Some _ =>
                let* (p, fields) := begin_path e at_ (s_fields st) in
                Ok {| s_tags := tags; s_done := s_done st; s_cur := s_cur st; s_spk := s_spk st; s_path := Some p; s_fields := fields |}
            end
          else
            let* lab := teq e name (B "LABEL") in
            let* cat := teq e name (B "CATEGORY") in
            if lab || cat then
              match s_cur st with
              | None => Ok st
              | Some r =>
                  let* r := read_label e name at_ r in
                  Ok {| s_tags := tags; s_done := s_done st; s_cur := Some r; s_spk := s_spk st; s_path := s_path st; s_fields := s_fields st |}
              end
            else Ok st
  end.
(** scores.c:542-563; without path, system or speaker the end of a path follows null pointers *)
Definition end_tag (e : enc) (st : state) (buf : mem) : res state :=
  let* t := delete_tag (s_tags st) buf in
  match t with
  | None => Exit
  | Some (name, tags) =>
      let* sys := teq e name (B "SYSTEM") in
      if sys : bool then
        Ok {| s_tags := tags; s_done := s_done st ++ match s_cur st with Some r => [r] | None => [] end; s_cur := None;
              s_spk := None; s_path := None; s_fields := s_fields st |}
      else
        let* spk := teq e name (B "SPEAKER") in
        if spk : bool then
          Ok {| s_tags := tags; s_done := s_done st; s_cur := s_cur st; s_spk := None; s_path := None; s_fields := s_fields st |}
        else
          let* pat := teq e name (B "PATH") in
          if pat : bool then
            match s_cur st, s_path st, s_spk st with
            | Some r, Some p, Some i =>
                let* gs := add_path (r_grps r) i (o_path p) in
                Ok {| s_tags := tags; s_done := s_done st; s_cur := Some (with_grps r gs); s_spk := s_spk st; s_path := None; s_fields := s_fields st |}
            | _, _, _ => Undef
            end
          else Ok {| s_tags := tags; s_done := s_done st; s_cur := s_cur st; s_spk := s_spk st; s_path := s_path st; s_fields := s_fields st |}
  end.
(** scores.c:356-738, one line *)
Definition read_line (e : enc) (maxn : nat) (st : state) (line : str) : res state :=
  let buf := cstr line in
  let* c := rd buf in
  let* slash := (if (c =? 60)%N then let* m := adv 1 buf in let* d := rd m in Ok (d =? 47)%N else Ok false) in
  if (c =? 60)%N then if slash : bool then end_tag e st buf else begin_tag e maxn st buf
  else match s_path st with
       | None => Ok st
       | Some o =>
           let* o := read_data (S (length buf)) e buf (token_buffer line) (s_fields st) o in
           Ok {| s_tags := s_tags st; s_done := s_done st; s_cur := s_cur st; s_spk := s_spk st; s_path := Some o; s_fields := s_fields st |}
       end.
(** scores.c:354-355; lines as TEXT_ensure_fgets returns them (C42) *)
Fixpoint load_loop (fuel : nat) (e : enc) (maxn : nat) (f : Read_Model.FILE) (st : state) : res state :=
  match fuel with
  | O => NoFuel
  | S n =>
      if Read_Model.feof f then Ok st
      else match Read_Model.get_line f with
           | (None, _) => Ok st
           | (Some l, f) => let* st := read_line e maxn st l in load_loop n e maxn f st
           end
  end.
(** scores.c:341-757 [load_SCORES_sgml], called with an empty array of [maxn] cells *)
Definition load (e : enc) (maxn : nat) (file : str) : res (list report) :=
  let* st := load_loop (S (length file)) e maxn {| Read_Model.rest := file; Read_Model.feof := false |}
    {| s_tags := []; s_done := []; s_cur := None; s_spk := None; s_path := None; s_fields := [] |} in
  Ok (s_done st ++ match s_cur st with Some r => [r] | None => [] end).
