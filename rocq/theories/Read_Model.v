(** Model of the reading of STM and CTM files by sclite: /repo/src/sclite/stm.c and fillmrks.c, the
    strtok of text.c, and the loop of stm2ctm.c over the channels with the windows in which the
    files are read.

    Files are bytes without NUL, texts are ASCII (every character is one byte, the case conversion
    is tolower).  [numS] and [numC] stand for the conversion of a number (TEXT_atof, atof): any
    functions of the text.  Lines are as TEXT_ensure_fgets returns them (Text_Model, C42): the next
    line with its newline, of any length. *)
From Coq Require Import List NArith ZArith Arith Bool.
From Verif Require Import Base Chan_Model.
Import ListNotations.
Local Open Scope res_scope.
Local Open Scope Z_scope.

(** A file open for reading: what is left, and feof(). *)
Record FILE := { rest : str; feof : bool }.
Fixpoint split_line (l : str) : str * str :=
  match l with
  | [] => ([], [])
  | c :: r => if (c =? 10)%N then ([c], r) else let (a, b) := split_line r in (c :: a, b)
  end.
(** TEXT_ensure_fgets: the end of the file is noticed by a line without newline. *)
Definition get_line (f : FILE) : option str * FILE :=
  match rest f with
  | [] => (None, {| rest := []; feof := true |})
  | _ => let (l, r) := split_line (rest f) in
         (Some l, {| rest := r; feof := feof f || negb (N.eqb (last l 0%N) 10) |})
  end.

(** ** text.c:924-967 TEXT_strtok with " \t\n" *)
Definition blank (c : N) : bool := ((c =? 32) || (c =? 9) || (c =? 10))%N.
(** [buf] is a block of memory that holds the text and its terminator. *)
Fixpoint skip_blank (l : str) : res nat :=
  match l with
  | [] => Undef
  | c :: r => if (c =? 0)%N then Ok O else if blank c then let* n := skip_blank r in Ok (S n) else Ok O
  end.
Fixpoint tok_len (l : str) : res nat :=
  match l with
  | [] => Undef
  | c :: r => if (c =? 0)%N then Ok O else if blank c then Ok O else let* n := tok_len r in Ok (S n)
  end.
Definition at_ (buf : str) (i : nat) : res N :=
  match nth_error buf i with Some c => Ok c | None => Undef end.
Definition put (buf : str) (i : nat) (c : N) : str := firstn i buf ++ c :: skipn (S i) buf.
(** The token (its position, [None] the null pointer), the block and basep. *)
Definition strtok (buf : str) (base : nat) : res (option nat * str * nat) :=
  let* c := at_ buf base in
  if (c =? 0)%N then Ok (None, buf, base)
  else
    let* k := skip_blank (skipn base buf) in
    let p := (base + k)%nat in
    let* d := at_ buf p in
    if (d =? 0)%N then Ok (None, buf, p)
    else
      let* n := tok_len (skipn p buf) in
      let e := (p + n)%nat in
      let* x := at_ buf e in
      if (x =? 0)%N then Ok (Some p, buf, e) else Ok (Some p, put buf e 0, S e).
(** The C string at a position. *)
Fixpoint cstr (l : str) : res str :=
  match l with
  | [] => Undef
  | c :: r => if (c =? 0)%N then Ok [] else let* s := cstr r in Ok (c :: s)
  end.
(** strtok and the copy of the token by TEXT_strdup, atof or TEXT_strBcpy, which all read the null
    pointer if there is none. *)
Definition next_field (buf : str) (base : nat) : res (str * str * nat) :=
  let* (t, base') := strtok buf base in
  let (p, buf') := t in
  match p with
  | None => Undef
  | Some p => let* s := cstr (skipn p buf') in Ok (s, buf', base')
  end.

(** ** STM *)
(** stm.h: a segment with its speaker and label. *)
Record sline := { l_seg :> seg; l_spkr : str; l_label : option str }.

Definition isspace (c : N) : bool := ((c =? 32) || ((9 <=? c) && (c <=? 13)))%N.
(** text.c:1404-1437, 1383-1397 *)
Definition twice (c : N) (buf : str) : bool := match buf with a :: b :: _ => ((a =? c) && (b =? c))%N | _ => false end.
Definition skippable (buf : str) : bool := twice 59 buf || twice 42 buf || forallb isspace buf.

(** stm.c:34-42 [read_stm_line]: [buf] is the line before. *)
Fixpoint read_stm_loop (fuel : nat) (buf : str) (f : FILE) : res (str * FILE) :=
  match fuel with
  | O => NoFuel
  | S n =>
    if negb (feof f) && skippable buf then
      let (l, f') := get_line f in read_stm_loop n (match l with Some l => l | None => [] end) f'
    else Ok (buf, f)
  end.
Definition read_stm_line (f : FILE) : res (str * FILE) := read_stm_loop (S (S (length (rest f)))) [59; 59]%N f.

Section Numbers.
  Variables numS numC : str -> Z.

  (** stm.c:45-98 [parse_stm_line], [line] not empty. *)
  Definition parse_stm_line (case_sense : bool) (line : str) : res sline :=
    let line := if case_sense then line else map lower line in
    let len := length line in
    let buf := line ++ [0%N] in
    let* (t, p) := next_field buf 0 in let (file, buf) := t in
    let* (t, p) := next_field buf p in let (chan, buf) := t in
    let* (t, p) := next_field buf p in let (spkr, buf) := t in
    let* (t, p) := next_field buf p in let (b, buf) := t in
    let* (t, p) := next_field buf p in let (e, buf) := t in
    let* (t, p) := strtok buf p in let (rp, buf) := t in
    let* c := (match rp with Some i => at_ buf i | None => Ok 0%N end) in
    let* (t, buf) :=
      (if (c =? 60)%N then
         let* lab := cstr (skipn (match rp with Some i => i | None => O end) buf) in
         let* (t, _) := strtok buf p in let (rp, buf) := t in
         Ok ((Some lab, rp), buf)
       else Ok ((None, rp), buf)) in
    let (lab, rp) := t in
    let* text :=
      (match rp with
       | None => Ok []
       | Some i =>
           let* w := cstr (skipn i buf) in
           let x := (i + length w)%nat in
           cstr (skipn i (if Nat.ltb x len then put buf x 32 else buf))
       end) in
    let i := Z.of_nat (length text) - 1 in
    let text := if (0 <? i) && N.eqb (last text 0%N) 10 then removelast text else text in
    Ok {| l_seg := {| Chan_Model.file := file; Chan_Model.chan := chan; s_t1 := numS b; s_t2 := numS e; Chan_Model.text := text |};
          l_spkr := spkr; l_label := lab |}.

  (** The window of the reference: its size, stm->s and the segments. *)
  Record swin := { s_max : Z; s_s : Z; s_segs : list sline }.

  (** stm.c:130-139: the loop that reads. *)
  Fixpoint fill_STM_loop (fuel : nat) (case_sense : bool) (f : FILE) (max : Z) (segs : list sline) : res (list sline * FILE) :=
    match fuel with
    | O => NoFuel
    | S n =>
      if negb (feof f) && (Z.of_nat (length segs) + 1 <? max) then
        let* (buf, f') := read_stm_line f in
        match buf with
        | [] => fill_STM_loop n case_sense f' max segs
        | _ => let* s := parse_stm_line case_sense buf in fill_STM_loop n case_sense f' max (segs ++ [s])
        end
      else Ok (segs, f)
    end.
  (** stm.c:100-145 [fill_STM].  With s beyond num the code frees and writes what it has not. *)
  Definition fill_STM (case_sense : bool) (f : FILE) (w : swin) : res (swin * FILE) :=
    let num := Z.of_nat (length (s_segs w)) in
    let* w :=
      (if 1 <? s_s w then
         if num <? s_s w then Undef
         else Ok {| s_max := s_max w; s_s := 0; s_segs := skipn (Z.to_nat (s_s w)) (s_segs w) |}
       else Ok w) in
    let* (segs, f') := fill_STM_loop (S (S (length (rest f)))) case_sense f (s_max w) (s_segs w) in
    Ok ({| s_max := s_max w; s_s := s_s w; s_segs := segs |}, f').

  (** stm.c:152-174 [locate_STM_boundary] by file only. *)
  Definition locate_file (segs : list seg) (start : Z) : Z :=
    let n := Z.of_nat (length segs) in
    if start =? n then start
    else match skipn (Z.to_nat start) segs with
         | [] => n
         | k :: r => match change_at (fun s => str_eqb (file k) (file s)) start (k :: r) with Some e => e | None => n end
         end.
  (** stm.c:260-289 [fill_STM_structure]; [eof] is the static stm_eof. *)
  Fixpoint fill_STM_structure (fuel : nat) (case_sense : bool) (just_read : bool) (w : swin) (f : FILE) (eof : bool)
      : res (swin * FILE * bool) :=
    match fuel with
    | O => NoFuel
    | S n =>
      let e := locate_file (map l_seg (s_segs w)) (s_s w) in
      if (e =? Z.of_nat (length (s_segs w))) && negb eof then
        let w := if just_read then {| s_max := s_max w * 2; s_s := s_s w; s_segs := s_segs w |} else w in
        let* (w', f') := fill_STM case_sense f w in
        fill_STM_structure n case_sense true w' f' (feof f')
      else Ok (w, f, eof)
    end.

  (** ** CTM *)
  (** wtokstr1.h: a word with its confidence and the probability of being correct. *)
  Record cword := { c_mword :> mword; c_bad : bool; c_conf : option Z; c_corr : option Z }.

  (** text.c:891-898 TEXT_strBcpy into a block of LINE_LENGTH bytes, the limit being as large. *)
  Definition LINE_LENGTH : nat := 500.
  Definition bcpy (s : str) : res str := if Nat.ltb (length s) LINE_LENGTH then Ok s else Undef.
  Definition nonempty (s : str) : res str := match s with [] => Exit | _ => Ok s end.
  Definition opt_field (buf : str) (base : nat) : res (option str * str * nat) :=
    let* (t, base') := strtok buf base in
    let (p, buf') := t in
    match p with
    | None => Ok (None, buf', base')
    | Some p => let* s := cstr (skipn p buf') in let* s := bcpy s in Ok (Some s, buf', base')
    end.
  (** text.c:1484-1506 TEXT_strspn with " \t" *)
  Fixpoint strspn (l : str) : nat :=
    match l with c :: r => if ((c =? 32) || (c =? 9))%N then S (strspn r) else O | [] => O end.
  (** "NA" *)
  Definition NA : str := [78; 65]%N.
  (** fillmrks.c:112-205: a line; the word has no flag "alternate" yet. *)
  Definition parse_ctm_line (case_sense : bool) (line : str) : res cword :=
    let line := if case_sense then line else map lower line in
    let line := if N.eqb (last line 0%N) 10 then removelast line else line in
    match line with
    | [] => Exit
    | _ =>
      let buf := line ++ [0%N] in
      let* (t, p) := next_field buf (strspn line) in let (xconv, buf) := t in
      let* xconv := bcpy xconv in
      let* (t, p) := next_field buf p in let (side, buf) := t in
      let* side := bcpy side in
      let* (t, p) := next_field buf p in let (s2, buf) := t in
      let* s2 := bcpy s2 in
      let* (t, p) := next_field buf p in let (s3, buf) := t in
      let* s3 := bcpy s3 in
      let* (t, p) := next_field buf p in let (xsp, buf) := t in
      let* xsp := bcpy xsp in
      let* (t, p) := opt_field buf p in let (xconf, buf) := t in
      let* xcorr := (match xconf with
                     | None => Ok None
                     | Some _ => let* (t, p) := opt_field buf p in Ok (fst t)
                     end) in
      let* _ := nonempty xconv in
      let* _ := nonempty side in
      let* _ := nonempty s2 in
      let* _ := nonempty s3 in
      let* _ := nonempty xsp in
      let bad := twice 38 s2 in
      Ok {| c_mword := {| the_word := {| conv := xconv; turn := side; sp := xsp;
                                         t1 := numC (if bad then skipn 2 s2 else s2); dur := numC s3 |};
                          alternate := false |};
            c_bad := bad;
            c_conf := match xconf with
                      | Some x => if casecmp NA x then None else Some (numC x)
                      | None => None
                      end;
            c_corr := option_map numC xcorr |}
    end.
  (** fillmrks.c:216-225: the flag "alternate" of the next word after the words in the window. *)
  Definition with_alternate (words : list cword) (w : cword) : cword :=
    let a := (match words with
              | [] => false
              | d :: _ => let p := last words d in alternate p && negb (is_end p)
              end) || is_marker w in
    {| c_mword := {| the_word := c_mword w; alternate := a |}; c_bad := c_bad w; c_conf := c_conf w; c_corr := c_corr w |}.

  (** The window of the hypothesis: its size, s and the words. *)
  Record cwin := { w_max : Z; w_s : Z; w_words : list cword }.
  (** memory.h:159-167: the new size, (int)(max * 1.3), in exact arithmetic. *)
  Definition grow (max : Z) : Z := max * 13 / 10.
  Definition expand (max : Z) (words : list cword) : Z :=
    match words with
    | [] => max
    | d :: _ => if (max - 1 <=? Z.of_nat (length words)) && str_eqb (conv (last words d)) (conv d) then grow max else max
    end.
  (** fillmrks.c:108-233: the loop that reads; the result: the words, the size, the file and whether
      the end of the file was met. *)
  Fixpoint fill_mark_loop (fuel : nat) (case_sense : bool) (f : FILE) (max : Z) (words : list cword) : res (list cword * Z * FILE * bool) :=
    match fuel with
    | O => NoFuel
    | S n =>
      if Z.of_nat (length words) <? max - 1 then
        match get_line f with
        | (None, f') => Ok (words, max, f', true)
        | (Some line, f') =>
            let* words :=
              (match line with
               | c :: _ => if (c =? 59)%N then Ok words
                           else let* w := parse_ctm_line case_sense line in Ok (words ++ [with_alternate words w])
               | [] => Undef
               end) in
            fill_mark_loop n case_sense f' (expand max words) words
        end
      else Ok (words, max, f, false)
    end.
  (** fillmrks.c:59-266 [fill_mark_struct] (without the mark of overlaps by starred turns); [eof] is
      *end_of_file.  The errors of a line end the program (fillmrks.c:22-26). *)
  Definition fill_mark_struct (case_sense : bool) (f : FILE) (w : cwin) (eof : bool) : res (cwin * FILE * bool) :=
    let words := if 1 <? w_s w then skipn (Z.to_nat (w_s w - 1)) (w_words w) else w_words w in
    let* (t, e) := fill_mark_loop (S (S (length (rest f)))) case_sense f (w_max w) words in
    let (t, f') := t in let (words, max) := t in
    Ok ({| w_max := max; w_s := 1; w_words := words |}, f', if e then true else eof).

  (** fillmrks.c:269-290 [locate_WTOKE_boundary] by conversation only. *)
  Definition locate_conv (hyp : list word) (start : Z) : Z :=
    let n := Z.of_nat (length hyp) in
    if start =? n then start
    else match skipn (Z.to_nat (start - 1)) hyp with
         | [] => n
         | k :: r => match change_at (fun w => str_eqb (conv k) (conv w)) start (k :: r) with Some e => e | None => n end
         end.
  (** fillmrks.c:11-32 [fill_WTOKE_structure] *)
  Fixpoint fill_WTOKE_loop (fuel : nat) (case_sense : bool) (w : cwin) (f : FILE) (eof : bool) : res (cwin * FILE) :=
    match fuel with
    | O => NoFuel
    | S n =>
      let e := locate_conv (map (fun x => the_word (c_mword x)) (w_words w)) (w_s w) in
      if (e =? Z.of_nat (length (w_words w))) && negb eof then
        let* (t, eof') := fill_mark_struct case_sense f w eof in
        let (w', f') := t in
        fill_WTOKE_loop n case_sense w' f' eof'
      else Ok (w, f)
    end.
  Definition fill_WTOKE_structure (case_sense : bool) (w : cwin) (f : FILE) : res (cwin * FILE) :=
    fill_WTOKE_loop (S (S (S (length (rest f))))) case_sense w f (feof f).

  (** ** stm2ctm.c:343-458 [align_ctm_to_stm_dp] with the windows *)
  (** What is seen of a channel: the segments aligned, each with its words and whether it is scored,
      and the flags "ignore" of the words of the channel. *)
  Definition seen := (list (option seg * list word * bool) * list bool)%type.
  Definition observe (hyp : list word) (stm : list seg) (c : channel) : seen :=
    (map (fun x => (nth_error stm (Z.to_nat (c_seg x)), words_of hyp (c_from x) (c_to x), c_scored x)) (cuts c), flags c).

  Fixpoint files_loop (fuel : nat) (case_sense : bool) (o : opts) (sw : swin) (sf : FILE) (seof : bool) (ww : cwin) (wf : FILE)
      : res (option (list seen)) :=
    match fuel with
    | O => NoFuel
    | S k =>
      let* (t, seof) := fill_STM_structure (S (S (S (length (rest sf))))) case_sense false sw sf seof in
      let (sw, sf) := t in
      let* (ww, wf) := fill_WTOKE_structure case_sense ww wf in
      let stm := map l_seg (s_segs sw) in
      let hyp := map c_mword (w_words ww) in
      let ss := s_s sw in
      let hs := w_s ww in
      let n := Z.of_nat (length hyp) in
      let num := Z.of_nat (length stm) in
      let hend := locate_words hyp hs in
      let rend := locate_segs stm ss in
      let* _ := (if feedback o then sg stm ss else Ok {| file := []; chan := []; s_t1 := 0; s_t2 := 0; text := [] |}) in
      let* hend' := (if n <? hs then let* _ := sg stm ss in Ok (Some hend)
                     else if num <? ss then Ok None
                     else let* w := wd hyp hs in
                          let* s := sg stm ss in
                          if str_eqb (conv w) (file s) && str_eqb (turn w) (chan s) then Ok (Some hend)
                          else Ok (Some (hs - 1))) in
      match hend' with
      | None => Ok None
      | Some he =>
        let* c := align_one_channel o hyp stm hs he ss rend in
        let v := observe (map the_word hyp) stm c in
        if (he + 1 <=? n) || (rend + 1 <? num) then
          let* r := files_loop k case_sense o {| s_max := s_max sw; s_s := rend + 1; s_segs := s_segs sw |} sf seof
                      {| w_max := w_max ww; w_s := he + 1; w_words := w_words ww |} wf in
          Ok (option_map (cons v) r)
        else Ok (Some [v])
      end
    end.
  (** stm.c:3-11 and wtokeini.c:6-16 with the sizes of the windows: 200 and 5000 in the code. *)
  Definition align_files (case_sense : bool) (o : opts) (smax wmax : Z) (ref hyp : str) : res (option (list seen)) :=
    files_loop (S (S (length ref))) case_sense o
      {| s_max := smax; s_s := 0; s_segs := [] |} {| rest := ref; feof := false |} false
      {| w_max := wmax; w_s := 1; w_words := [] |} {| rest := hyp; feof := false |}.
End Numbers.
