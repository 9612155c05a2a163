(** Model of asclite's transcript parser: a line of words with alternations "{ a / b }" is
    turned into a graph of tokens (src/asclite/core/linestyle_inputparser.cpp). *)
From Coq Require Import List ZArith Arith Bool Ascii String.
From Verif Require Import Base Graph_Model Links_Model.
Import ListNotations.
Local Open Scope res_scope.

(** ** Characters *)

(** The separators of the strtok calls (linestyle_inputparser.cpp:298, 343). *)
Definition is_sep (c : ascii) : bool :=
  Ascii.eqb c " " || Ascii.eqb c "009" || Ascii.eqb c "010" || Ascii.eqb c "013".

(** strtok over a whole line: the maximal runs of characters that are not separators. *)
Fixpoint split_from (cur : list ascii) (l : list ascii) : list string :=
  let flush := match cur with [] => [] | _ => [string_of_list_ascii (rev cur)] end in
  match l with
  | [] => flush
  | c :: r => if is_sep c then flush ++ split_from [] r else split_from (c :: cur) r
  end.
Definition split_words (l : list ascii) : list string := split_from [] l.

(** linestyle_inputparser.cpp:399. *)
Definition is_special (c : ascii) : bool :=
  Ascii.eqb c "{" || Ascii.eqb c "}" || Ascii.eqb c "/" || Ascii.eqb c "@".

(** linestyle_inputparser.cpp:397-434 [FilterSpace]: a space is inserted before a special
    character unless it is first or follows one, and after it unless it is last or precedes
    one.  [prev] is the character before, after the insertions. *)
Fixpoint filter_space_from (prev : option ascii) (l : list ascii) : list ascii :=
  match l with
  | [] => []
  | c :: r =>
      if is_special c then
        (match prev with
         | None => []
         | Some p => if Ascii.eqb p " " then [] else [" "%char]
         end) ++
        c :: (match r with
              | [] => []
              | n :: _ => if Ascii.eqb n " " then filter_space_from (Some c) r
                          else " "%char :: filter_space_from (Some " "%char) r
              end)
      else c :: filter_space_from (Some c) r
  end.
Definition filter_space (l : list ascii) : list ascii := filter_space_from None l.

(** linestyle_inputparser.cpp:436-449 [ReplaceChar], for one-character strings. *)
Definition replace_char (bad good : ascii) (l : list ascii) : list ascii :=
  map (fun c => if Ascii.eqb c bad then good else c) l.

(** ** Words.  A statement of the program, a string of words separated by single spaces
    (possibly with a leading one), is the list of its words. *)

(** linestyle_inputparser.cpp:293-328 [SeparateBySlash]. *)
Fixpoint sep_from (depth : Z) (cur : list string) (ws : list string) : list (list string) :=
  match ws with
  | [] => [cur]
  | w :: r =>
      let depth := (if String.eqb w "{" then depth + 1
                    else if String.eqb w "}" then depth - 1 else depth)%Z in
      if String.eqb w "/" && (depth =? 0)%Z
      then cur :: sep_from depth [] r
      else sep_from depth (cur ++ [w]) r
  end.
Definition separate_by_slash (ws : list string) : list (list string) := sep_from 0 [] ws.

(** linestyle_inputparser.cpp:330-383 [TokeniseWords]: the words, a group in braces being
    one of them, without its braces. *)
Fixpoint tok_from (depth : Z) (cur : list string) (ws : list string) : list (list string) :=
  match ws with
  | [] => []
  | w :: r =>
      let depth := (if String.eqb w "{" then depth + 1
                    else if String.eqb w "}" then depth - 1 else depth)%Z in
      if String.eqb w "{" && (depth =? 1)%Z then tok_from depth cur r
      else if String.eqb w "}" && (depth =? 0)%Z then cur :: tok_from depth [] r
      else if (depth =? 0)%Z then (cur ++ [w]) :: tok_from depth [] r
      else tok_from depth (cur ++ [w]) r
  end.
Definition tokenise_words (ws : list string) : list (list string) :=
  match ws with [] => [[]] | _ => tok_from 0 [] ws end.

(** ** Tokens *)

(** A token as [BuildToken] (inputparser.cpp:28-33) makes it, and whether
    [BecomeOptionallyDeletable] was called on it.  The confidence is not modelled. *)
Record atok := { at_text : string; at_start : Z; at_dur : Z; at_opt : bool }.

(** The tokens made so far (token [i] is the [i]-th) and their links. *)
Record pstate := { ps_toks : list atok; ps_links : links }.
Definition empty_state : pstate :=
  {| ps_toks := []; ps_links := {| nxt := fun _ => []; prc := fun _ => [] |} |}.

(** linestyle_inputparser.h:47-69 [VirtualSegment]. *)
Record vseg := { vs_start : list nat; vs_end : list nat; vs_trav : bool }.
Definition empty_vseg : vseg := {| vs_start := []; vs_end := []; vs_trav := false |}.

(** [m_bUseExtended], [m_starttime], [m_endtime]: [None] when not extended. *)
Definition extended := option (Z * Z).

(** linestyle_inputparser.cpp:180-222: the token for the [i]-th of [n] words.  The division is
    C's. *)
Definition make_token (x : extended) (opt : bool) (n i : nat) (w : string) : atok :=
  match x with
  | None => {| at_text := w; at_start := -1; at_dur := -1; at_opt := opt |}
  | Some (st, en) =>
      if n =? 1 then {| at_text := w; at_start := st; at_dur := en - st; at_opt := opt |}
      else let d := Z.quot (en - st) (Z.of_nat n) in
           {| at_text := w; at_start := st + Z.of_nat i * d; at_dur := d; at_opt := opt |}
  end.

Definition add_token (st : pstate) (t : atok) : pstate * nat :=
  ({| ps_toks := ps_toks st ++ [t]; ps_links := ps_links st |}, List.length (ps_toks st)).

(** linestyle_inputparser.cpp:385-395 [Attach] is [attach] of Links_Model. *)
Definition attach_to (st : pstate) (ends starts : list nat) : pstate :=
  {| ps_toks := ps_toks st; ps_links := attach (ps_links st) ends starts |}.

(** linestyle_inputparser.cpp:234-272: a statement [toks] that is not skipped is added at the
    end of the sequence.  Of [prec_token] only the end tokens matter ([None] when NULL);
    [Transition] (451-475) is the last line. *)
Definition add_step (st : pstate) (isfirst : bool) (prec : option (list nat)) (out toks : vseg)
    : pstate * bool * option (list nat) * vseg :=
  let st1 := match prec with Some pe => attach_to st pe (vs_start toks) | None => st end in
  let starts := if isfirst then vs_start out ++ vs_start toks else vs_start out in
  let isfirst1 := if negb (vs_trav toks) && isfirst then false else isfirst in
  let ends := (if negb (vs_trav toks) then [] else vs_end out) ++ vs_end toks in
  let prec1 := if vs_trav toks
               then match prec with Some pe => pe ++ vs_end toks | None => vs_end toks end
               else vs_end toks in
  (st1, isfirst1, Some prec1, {| vs_start := starts; vs_end := ends; vs_trav := vs_trav out |}).

Definition set_trav (v : vseg) : vseg := {| vs_start := vs_start v; vs_end := vs_end v; vs_trav := true |}.

(** linestyle_inputparser.cpp:126-291 [ParseWords].  [fuel] bounds the nesting of calls. *)
Fixpoint parse (fuel : nat) (x : extended) (opt : bool) (ws : list string) (st : pstate)
    : res (pstate * vseg) :=
  match fuel with
  | 0 => NoFuel
  | S f =>
      match separate_by_slash ws with
      | [one] =>
          let words := tokenise_words one in
          let n := List.length words in
          (fix loop (i : nat) (l : list (list string)) (st : pstate) (isfirst : bool)
               (prec : option (list nat)) (out : vseg) : res (pstate * vseg) :=
             match l with
             | [] => Ok (st, out)
             | w :: r =>
                 match w with
                 | _ :: _ :: _ =>
                     let* (st1, toks) := parse f x opt w st in
                     let out1 := if vs_trav toks && (n =? 1) then set_trav out else out in
                     let '(st2, first2, prec2, out2) := add_step st1 isfirst prec out1 toks in
                     loop (S i) r st2 first2 prec2 out2
                 | _ =>
                     let word := match w with [u] => u | _ => EmptyString end in
                     if String.eqb word EmptyString || String.eqb word "@" then
                       if n =? 1 then
                         let '(st2, first2, prec2, out2) := add_step st isfirst prec (set_trav out) empty_vseg in
                         loop (S i) r st2 first2 prec2 out2
                       else loop (S i) r st isfirst prec out
                     else
                       let '(st1, t) := add_token st (make_token x opt n i word) in
                       let '(st2, first2, prec2, out2) :=
                         add_step st1 isfirst prec out {| vs_start := [t]; vs_end := [t]; vs_trav := false |} in
                       loop (S i) r st2 first2 prec2 out2
                 end
             end) 0 words st true None empty_vseg
      | ors =>
          (fix each (l : list (list string)) (st : pstate) (out : vseg) : res (pstate * vseg) :=
             match l with
             | [] => Ok (st, out)
             | w :: r =>
                 let* (st1, por) := parse f x opt w st in
                 each r st1 {| vs_start := vs_start out ++ vs_start por;
                               vs_end := vs_end out ++ vs_end por;
                               vs_trav := if vs_trav por then true else vs_trav out |}
             end) ors st empty_vseg
      end
  end.

(** linestyle_inputparser.cpp:25-48 [ParseWords] for a line, up to the segment: the words of
    the line, then its graph, whose start and end tokens become the first and last tokens of
    the segment.  The traversable flag is not used. *)
Definition parse_line (fuel : nat) (line : list ascii) (st : pstate) : res (pstate * vseg) :=
  parse fuel None false (split_words (filter_space line)) st.

(** linestyle_inputparser.cpp:50-81 [ParseWordsEx]. *)
Definition parse_line_ex (fuel : nat) (line : list ascii) (opt : bool) (start stop : Z) (st : pstate)
    : res (pstate * vseg) :=
  parse fuel (Some (start, stop)) opt
    (split_words (replace_char "#" " " (replace_char "_" " " (filter_space line)))) st.

(** stm_inputparser.cpp:219-247 for the lines of one speaker: one segment per line.  The tokens
    have no times, so that [AddFirstToken] and [AddLastToken] accept them; the times of the
    segments play no role here. *)
Fixpoint load_lines (fuel : nat) (lines : list (list ascii)) (st : pstate) : res (pstate * list segment) :=
  match lines with
  | [] => Ok (st, [])
  | l :: r =>
      let* (st1, v) := parse_line fuel l st in
      let* (st2, segs) := load_lines fuel r st1 in
      Ok (st2, {| sg_first := vs_start v; sg_last := vs_end v; sg_begin := 0; sg_end := 0 |} :: segs)
  end.

(** stm_inputparser.cpp:250-283: consecutive segments that are not empty are attached. *)
Fixpoint attach_segments (h : links) (prev : option segment) (segs : list segment) : links :=
  match segs with
  | [] => h
  | s :: r =>
      if seg_empty s then attach_segments h prev r
      else attach_segments (match prev with Some p => attach h (sg_last p) (sg_first s) | None => h end) (Some s) r
  end.

Definition load_speech (fuel : nat) (lines : list (list ascii)) : res (pstate * list segment) :=
  let* (st, segs) := load_lines fuel lines empty_state in
  Ok ({| ps_toks := ps_toks st; ps_links := attach_segments (ps_links st) None segs |}, segs).
