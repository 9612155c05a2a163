(** Model of asclite's reader of RTTM files, in its two modes, and of the expansion of alternations
    afterwards: src/asclite/core/rttm_inputparser.cpp, linestyle_inputparser.cpp. *)
From Coq Require Import String List NArith ZArith Arith Bool Ascii.
From Verif Require Import Base Store_Model Segm_Model Graph_Model Links_Model Token_Model Alt_Model Sgml_Model AsTrn_Model AsStm_Model.
Import ListNotations.
Local Open Scope res_scope.

(** * Expansion of alternations *)
(** The text of a token as [SetSourceText] stored it: [BecomeOptionallyDeletable] (token.h:115)
    puts it in parentheses. *)
Definition source (t : atok) : list ascii :=
  let s := list_ascii_of_string (at_text t) in
  if at_opt t then [BEGIN_OPTIONAL_MARKER] ++ s ++ [END_OPTIONAL_MARKER] else s.
(** The times of the tokens *)
Definition no_tok : atok := {| at_text := ""; at_start := 0; at_dur := 0; at_opt := false |}.
Definition times_of (toks : list atok) : times :=
  {| tk_begin := fun i => at_start (nth i toks no_tok); tk_end := fun i => (at_start (nth i toks no_tok) + at_dur (nth i toks no_tok))%Z |}.
(** linestyle_inputparser.cpp:99-102: find_first_of and find_last_of look for one of the characters *)
Definition marked (s : list ascii) : bool :=
  existsb (fun c => Ascii.eqb c "{" || Ascii.eqb c "_") s && existsb (fun c => Ascii.eqb c "_" || Ascii.eqb c "}") s.
(** linestyle_inputparser.cpp:94-121, one token.  Its flags are those of its text, so it is made anew.
    The confidence of the new tokens is not modelled: in speaker mode it is uninitialised. *)
Definition expand_token (o : options) (fuel : nat) (st : pstate) (s : segment) (t : nat) : res (pstate * segment) :=
  let tok := nth t (ps_toks st) no_tok in
  let* (text, tk) := get_text o (new_token (source tok)) in
  if marked text then
    let* (st1, v) := parse_line_ex fuel text (tk_opt tk) (at_start tok) (at_start tok + at_dur tok) st in
    let* (h, s1) := replace_token (times_of (ps_toks st1)) (ps_links st1) s t (vs_start v) (vs_end v) in
    Ok ({| ps_toks := ps_toks st1; ps_links := h |}, s1)
  else Ok (st, s).
Fixpoint expand_tokens (o : options) (fuel : nat) (ts : list nat) (st : pstate) (s : segment) : res (pstate * segment) :=
  match ts with
  | [] => Ok (st, s)
  | t :: r => let* (st, s) := expand_token o fuel st s t in expand_tokens o fuel r st s
  end.
(** linestyle_inputparser.cpp:91-122, one segment *)
Definition expand_segment (o : options) (fuel : nat) (st : pstate) (s : segment) : res (pstate * segment) :=
  let* ts := flatten (nxt (ps_links st)) (S (List.length (ps_toks st))) s in
  expand_tokens o fuel ts st s.

(** * Files *)
(** A segment (segment.h): file, channel, speaker, line, number, id, the confidence given to its tokens in
    the lexeme mode, and its tokens and times.  [r_prev] is mapPrevTokenbySegment of the speaker mode. *)
Record rseg := { r_src : str; r_chan : str; r_spkr : str; r_line : nat; r_elem : nat; r_id : str; r_conf : option str;
                 r_prev : option nat; r_seg : segment }.
Definition with_seg (x : rseg) (s : segment) : rseg :=
  {| r_src := r_src x; r_chan := r_chan x; r_spkr := r_spkr x; r_line := r_line x; r_elem := r_elem x; r_id := r_id x; r_conf := r_conf x; r_prev := r_prev x; r_seg := s |}.
(** linestyle_inputparser.cpp:83-124 [ExpandAlternationSpeechSet] *)
Fixpoint expand_speech (o : options) (fuel : nat) (st : pstate) (l : list rseg) : res (pstate * list rseg) :=
  match l with
  | [] => Ok (st, [])
  | x :: r => let* (st, s) := expand_segment o fuel st (r_seg x) in
              let* (st, r) := expand_speech o fuel st r in
              Ok (st, with_seg x s :: r)
  end.
Fixpoint expand_set (o : options) (fuel : nat) (st : pstate) (set : list (list rseg)) : res (pstate * list (list rseg)) :=
  match set with
  | [] => Ok (st, [])
  | l :: r => let* (st, l) := expand_speech o fuel st l in
              let* (st, r) := expand_set o fuel st r in
              Ok (st, l :: r)
  end.

(** rttm_inputparser.cpp:106-114, 331-339: the types of words kept; 148-151, 357-360: those that are
    optional *)
Definition KEPT : list str := map bytes ["lex"; "fp"; "frag"; "un-lex"; "for-lex"; "alpha"; "acronym"; "interjection"; "propernoun"]%string.
Definition OPTIONAL : list str := map bytes ["fp"; "frag"; "un-lex"; "for-lex"]%string.
Definition among (s : str) (l : list str) : bool := existsb (str_eqb s) l.
Definition NA : str := bytes "<NA>".
Definition begins (p line : str) : bool := str_eqb (firstn (List.length p) line) p.

Section Numbers.
(** inputparser.h:44 [ParseString], for which any function will do *)
Variable ms : str -> Z.

(** ** One segment for each word *)
(** The variables of [loadFileLexeme] (rttm_inputparser.cpp:48-64) *)
Record xstate := { x_ps : pstate; x_map : list (str * list rseg); x_use : bool; x_line : nat; x_elem : nat }.
Definition first_x : xstate := {| x_ps := empty_state; x_map := []; x_use := true; x_line := 0; x_elem := 0 |}.
(** rttm_inputparser.cpp:66-176, one line.  Times are unbounded. *)
Definition lex_step (fuel : nat) (line : str) (t : xstate) : res xstate :=
  let skip := {| x_ps := x_ps t; x_map := x_map t; x_use := x_use t; x_line := S (x_line t); x_elem := x_elem t |} in
  if begins (bytes "LEXEME") line then
    let* bufs := scan 10 (pieces isspace [] line) in
    let* stype := buf bufs 6 in
    if among (map AsStm_Model.lower stype) KEPT then
      let* src := buf bufs 1 in
      let* chan := buf bufs 2 in
      let* b := buf bufs 3 in
      let* d := buf bufs 4 in
      let* word := buf bufs 5 in
      let* spkr := buf bufs 7 in
      let* conf := buf bufs 8 in
      let use := if str_eqb conf NA then false else x_use t in
      if existsb (N.eqb 34) word then Exit
      else
        let opt := among (map AsStm_Model.lower stype) OPTIONAL in
        let* (ps, v) := parse_line_ex fuel (map ascii_of_N word) opt (ms b) (ms b + ms d) (x_ps t) in
        let tm := times_of (ps_toks ps) in
        let* s := add_all (add_first tm) {| sg_first := []; sg_last := []; sg_begin := ms b; sg_end := ms b + ms d |} (vs_start v) in
        let* s := add_all (add_last tm) s (vs_end v) in
        let speech := at_key spkr (x_map t) in
        let x := {| r_src := src; r_chan := chan; r_spkr := spkr; r_line := x_line t; r_elem := x_elem t; r_id := id_of spkr (List.length speech) 0;
                    r_conf := if use then Some conf else None; r_prev := None; r_seg := s |} in
        let h := match rev speech with p :: _ => attach (ps_links ps) (sg_last (r_seg p)) (sg_first s) | [] => ps_links ps end in
        Ok {| x_ps := {| ps_toks := ps_toks ps; ps_links := h |}; x_map := add_to spkr x (x_map t); x_use := use; x_line := S (x_line t); x_elem := S (x_elem t) |}
    else Ok skip
  else Ok skip.
Fixpoint lex_steps (fuel : nat) (ls : list str) (t : xstate) : res xstate :=
  match ls with [] => Ok t | l :: r => let* t := lex_step fuel l t in lex_steps fuel r t end.
(** rttm_inputparser.cpp:32-37, 46-203, for a file that can be opened *)
Definition load_lexemes (o : options) (fuel : nat) (file : str) : res (pstate * list (list rseg)) :=
  let* t := lex_steps fuel (getlines [] file) first_x in
  match x_map t with
  | [] => Exit
  | m => expand_set o fuel (x_ps t) (map snd m)
  end.

(** ** The segments of the file *)
(** The variables of [loadFileSpeaker] (rttm_inputparser.cpp:207-227): a speaker's current segment is the
    last one of the speech. [y_confs] are the confidences of the tokens. *)
Record ystate := { y_ps : pstate; y_map : list (str * list rseg); y_line : nat; y_confs : list (option str) }.
Definition first_y : ystate := {| y_ps := empty_state; y_map := []; y_line := 0; y_confs := [] |}.
(** The last segment of a speaker is changed. *)
Fixpoint set_last (f : rseg -> rseg) (l : list rseg) : list rseg :=
  match l with [] => [] | [x] => [f x] | x :: r => x :: set_last f r end.
Fixpoint change_at (s : str) (f : list rseg -> list rseg) (m : list (str * list rseg)) : list (str * list rseg) :=
  match m with [] => [] | (k, l) :: r => if str_eqb k s then (k, f l) :: r else (k, l) :: change_at s f r end.
(** rttm_inputparser.cpp:229-390, one line *)
Definition spk_step (line : str) (t : ystate) : res ystate :=
  let skip := {| y_ps := y_ps t; y_map := y_map t; y_line := S (y_line t); y_confs := y_confs t |} in
  if begins (bytes ";;") line then Ok skip
  else if begins (bytes "SPEAKER") line then
    let* bufs := scan 9 (pieces isspace [] line) in
    let* src := buf bufs 1 in
    let* chan := buf bufs 2 in
    let* b := buf bufs 3 in
    let* d := buf bufs 4 in
    let* spkr := buf bufs 7 in
    let speech := at_key spkr (y_map t) in
    let x := {| r_src := src; r_chan := chan; r_spkr := spkr; r_line := y_line t; r_elem := y_line t; r_id := id_of spkr (List.length speech) 0;
                r_conf := None; r_prev := None; r_seg := {| sg_first := []; sg_last := []; sg_begin := ms b; sg_end := ms b + ms d |} |} in
    Ok {| y_ps := y_ps t; y_map := add_to spkr x (y_map t); y_line := S (y_line t); y_confs := y_confs t |}
  else if begins (bytes "LEXEME") line then
    let* bufs := scan 9 (pieces isspace [] line) in
    let* stype := buf bufs 6 in
    if among (map AsStm_Model.lower stype) KEPT then
      let* spkr := buf bufs 7 in
      match rev (at_key spkr (y_map t)) with
      | [] => Ok skip
      | x :: _ =>
          let* b := buf bufs 3 in
          let* d := buf bufs 4 in
          let* word := buf bufs 5 in
          let* conf := buf bufs 8 in
          let text := if among (map AsStm_Model.lower stype) OPTIONAL then [40%N] ++ word ++ [41%N] else word in
          let '(ps, n) := add_token (y_ps t) {| at_text := string_of_list_ascii (map ascii_of_N text); at_start := ms b; at_dur := ms d; at_opt := false |} in
          let* s := (match r_prev x with
                     | None => add_first (times_of (ps_toks ps)) (r_seg x) n
                     | Some _ => Ok (r_seg x)
                     end) in
          let h := match r_prev x with Some p => add_prec (add_next (ps_links ps) p n) n p | None => ps_links ps end in
          let y := {| r_src := r_src x; r_chan := r_chan x; r_spkr := r_spkr x; r_line := r_line x; r_elem := r_elem x; r_id := r_id x; r_conf := r_conf x;
                      r_prev := Some n; r_seg := s |} in
          Ok {| y_ps := {| ps_toks := ps_toks ps; ps_links := h |}; y_map := change_at spkr (set_last (fun _ => y)) (y_map t); y_line := S (y_line t);
                y_confs := y_confs t ++ [if str_eqb conf NA then None else Some conf] |}
      end
    else Ok skip
  else Ok skip.
Fixpoint spk_steps (ls : list str) (t : ystate) : res ystate :=
  match ls with [] => Ok t | l :: r => let* t := spk_step l t in spk_steps r t end.
(** rttm_inputparser.cpp:392-404: the last tokens, in an order that does not matter *)
Fixpoint close_speech (tm : times) (l : list rseg) : res (list rseg) :=
  match l with
  | [] => Ok []
  | x :: r => let* s := (match r_prev x with Some n => add_last tm (r_seg x) n | None => Ok (r_seg x) end) in
              let* r := close_speech tm r in
              Ok (with_seg x s :: r)
  end.
Fixpoint close_set (tm : times) (set : list (list rseg)) : res (list (list rseg)) :=
  match set with [] => Ok [] | l :: r => let* l := close_speech tm l in let* r := close_set tm r in Ok (l :: r) end.
(** rttm_inputparser.cpp:406-435: the speeches are linked *)
Definition link_speech (h : links) (speech : list rseg) : links :=
  if Nat.ltb 1 (List.length speech) then attach_segments h None (map r_seg speech) else h.
(** rttm_inputparser.cpp:38-43, 205-453, for a file that can be opened: the tokens, the speeches and the
    confidences of the tokens read *)
Definition load_speakers (o : options) (fuel : nat) (file : str) : res (pstate * list (list rseg) * list (option str)) :=
  let* t := spk_steps (getlines [] file) first_y in
  let* set := close_set (times_of (ps_toks (y_ps t))) (map snd (y_map t)) in
  let* (st, set) := expand_set o fuel {| ps_toks := ps_toks (y_ps t); ps_links := fold_left link_speech set (ps_links (y_ps t)) |} set in
  Ok (st, set, y_confs t).
End Numbers.
