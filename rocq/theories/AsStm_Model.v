(** Model of asclite's reader of STM files: src/asclite/core/stm_inputparser.cpp. *)
From Coq Require Import String List NArith ZArith Arith Bool Ascii.
From Verif Require Import Base Store_Model Segm_Model Links_Model Alt_Model Sgml_Model AsTrn_Model.
Import ListNotations.
Local Open Scope res_scope.

(** * Characters *)
(** isspace and tolower in the C locale *)
Definition isspace (c : N) : bool := ((c =? 32) || ((9 <=? c) && (c <=? 13)))%N.
Definition lower (c : N) : N := if ((65 <=? c) && (c <=? 90))%N then (c + 32)%N else c.
(** The separators of strtok (stm_inputparser.cpp:94, 143) *)
Definition issep (c : N) : bool := ((c =? 32) || (c =? 9) || (c =? 13) || (c =? 10))%N.
(** The words "%s" of sscanf or strtok finds.  Lines hold no null byte. *)
Fixpoint pieces (sep : N -> bool) (cur l : str) : list str :=
  match l with
  | [] => match cur with [] => [] | _ => [cur] end
  | c :: r => if sep c then match cur with [] => pieces sep [] r | _ => cur :: pieces sep [] r end
              else pieces sep (cur ++ [c]) r
  end.
(** string::find *)
Fixpoint starts (p l : str) : bool :=
  match p, l with
  | [], _ => true
  | a :: p, b :: l => (a =? b)%N && starts p l
  | _, _ => false
  end.
Fixpoint find_sub (p l : str) : option nat :=
  if starts p l then Some 0 else match l with [] => None | _ :: r => option_map S (find_sub p r) end.
(** string::find from a position on *)
Definition find_from (p l : str) (k : nat) : option nat := option_map (Nat.add k) (find_sub p (skipn k l)).

(** * Categories *)
(** speechset.h [stcCategoryLabel] *)
Record cat := { k_type : str; k_id : str; k_title : str; k_desc : str }.
Definition no_cat : cat := {| k_type := []; k_id := []; k_title := []; k_desc := [] |}.
Definition option_eqb (a b : option nat) : bool :=
  match a, b with Some x, Some y => Nat.eqb x y | None, None => true | _, _ => false end.
Definition CATEGORY : str := bytes "CATEGORY".
Definition LABEL : str := bytes "LABEL".
(** stm_inputparser.cpp:131-136 *)
Definition set_field (i : nat) (t : str) (c : cat) : cat :=
  match i with
  | 2 => {| k_type := k_type c; k_id := t; k_title := k_title c; k_desc := k_desc c |}
  | 3 => {| k_type := k_type c; k_id := k_id c; k_title := t; k_desc := k_desc c |}
  | 4 => {| k_type := k_type c; k_id := k_id c; k_title := k_title c; k_desc := t |}
  | _ => c
  end.
(** stm_inputparser.cpp:94-145: the words of a comment, from number [i] on *)
Fixpoint cat_words (i : nat) (ws : list str) (token : str) (c : cat) : cat :=
  match ws with
  | [] => c
  | w :: r =>
      match i with
      | 0 => cat_words 1 r token c
      | 1 => let t := if str_eqb w CATEGORY then CATEGORY else if str_eqb w LABEL then LABEL else k_type c in
             cat_words 2 r token {| k_type := t; k_id := k_id c; k_title := k_title c; k_desc := k_desc c |}
      | _ =>
          let qf := find_sub [34%N] w in
          let ql := last_of (N.eqb 34) w in
          let token := if option_eqb qf ql then (match token with [] => [] | _ => token ++ [32%N] end) ++ w else w in
          if option_eqb ql (Some (List.length w - 1))
          then cat_words (S i) r [] (set_field i (filter (fun c => negb (c =? 34)%N) token) c)
          else cat_words (S i) r token c
      end
  end.
(** stm_inputparser.cpp:85-149 *)
Definition comment (line : str) : list cat :=
  let c := cat_words 0 (pieces issep [] line) [] no_cat in
  match k_id c with [] => [] | _ => [c] end.

(** * Lines *)
(** stdinc.h:49 *)
Definition BUFFER_SIZE : nat := N.to_nat 255.
(** sscanf with one "%s" per buffer; the buffers are fresh for each line.  A word that does not fit
    with its null byte is undefined, and so is reading a buffer not written. *)
Fixpoint scan (n : nat) (ws : list str) : res (list str) :=
  match n, ws with
  | S n, w :: r => if Nat.ltb (List.length w) BUFFER_SIZE then let* x := scan n r in Ok (w :: x) else Undef
  | _, _ => Ok []
  end.
Definition buf (bufs : list str) (i : nat) : res str := match nth_error bufs i with Some s => Ok s | None => Undef end.
(** stm_inputparser.cpp:164-168: the positions are int, -1 for npos; the length is converted to an
    unsigned number *)
Definition label_of (line : str) : str :=
  match find_sub [60%N] line, find_sub [62%N] line with
  | Some b, Some e => if Nat.leb b (S e) then firstn (S e - b) (skipn b line) else skipn b line
  | Some 0, None => []
  | Some b, None => skipn b line
  | None, _ => []
  end.
(** stm_inputparser.cpp:170, 175, 182-183: npos + 1 is 0 *)
Definition words_begin (labelled : bool) (line b e : str) : nat :=
  if labelled then match find_sub [62%N] line with Some p => S p | None => 0 end
  else let k := match find_sub b line with Some p => S p | None => 0 end in
       match find_from e line k with Some p => p + List.length e | None => List.length e - 1 end.

Definition GAP : str := bytes "inter_segment_gap".
Definition IGNORE : str := bytes "ignore_time_segment_in_scoring".
(** stm_inputparser.cpp:28-43 [CompareToISGCaseInsensitive]: the copy lacks its null byte; [junk] is
    what the memory after it holds, up to a null byte. *)
Definition is_gap (junk spkr : str) : bool := str_eqb (map lower spkr ++ junk) GAP.
(** stm_inputparser.cpp:193-201; 45-54 [LowerCase] *)
Definition speaker_name (junk spkr : str) : str := if is_gap junk spkr then map lower spkr else spkr.
Definition ignored (words : str) : bool := match find_sub IGNORE (map lower words) with Some _ => true | None => false end.

(** A segment (segment.h): the file, channel, speaker, times, line, number, label, id, whether it is
    excluded from the scoring, and its first and last tokens. *)
Record sseg := { s_src : str; s_chan : str; s_spkr : str; s_start : Z; s_end : Z; s_line : nat; s_elem : Z;
                 s_label : str; s_id : str; s_excl : bool; s_first : list nat; s_last : list nat }.

(** stm_inputparser.cpp:241-245: setw(3), filled with zeros; the number is a size_t, of 64 bits *)
Definition id_of (spkr : str) (nb ign : nat) : str :=
  let d := nat_text (Z.to_N ((Z.of_nat nb - Z.of_nat ign) mod 2 ^ 64)) in
  [40%N] ++ spkr ++ [45%N] ++ repeat 48%N (3 - List.length d) ++ d ++ [41%N].

(** map<string, ...>: in the order of the keys *)
Fixpoint at_key {A} (s : str) (m : list (str * list A)) : list A :=
  match m with [] => [] | (k, l) :: r => if str_eqb k s then l else at_key s r end.
Fixpoint add_to {A} (k : str) (x : A) (m : list (str * list A)) : list (str * list A) :=
  match m with
  | [] => [(k, [x])]
  | (k', l) :: r =>
      if str_eqb k k' then (k', l ++ [x]) :: r
      else if str_leb k k' then (k, [x]) :: m
      else (k', l) :: add_to k x r
  end.

(** The variables of [loadFile] (stm_inputparser.cpp:60-75), the tokens and their links. *)
Record lstate := { l_ps : pstate; l_map : list (str * list sseg); l_ign : str -> nat; l_line : nat; l_elem : Z; l_cats : list cat }.
Definition first_state : lstate := {| l_ps := empty_state; l_map := []; l_ign := fun _ => 0; l_line := 0; l_elem := -1; l_cats := [] |}.

Section Numbers.
(** inputparser.h:44 [ParseString], for which any function will do *)
Variable ms : str -> Z.
(** the memory after the speaker, at each line *)
Variable junk : nat -> str.

(** stm_inputparser.cpp:81-251, one line *)
Definition step (fuel : nat) (line : str) (t : lstate) : res lstate :=
  if is_comment line then
    Ok {| l_ps := l_ps t; l_map := l_map t; l_ign := l_ign t; l_line := S (l_line t); l_elem := l_elem t; l_cats := l_cats t ++ comment line |}
  else
    let* bufs := scan 6 (pieces isspace [] line) in
    let* src := buf bufs 0 in
    let* chan := buf bufs 1 in
    let* spkr := buf bufs 2 in
    let* b := buf bufs 3 in
    let* e := buf bufs 4 in
    let labelled := match nth_error bufs 5 with Some (c :: _) => (c =? 60)%N | _ => false end in
    let words := skipn (words_begin labelled line b e) line in
    let spkr := speaker_name (junk (l_line t)) spkr in
    let nb := List.length (at_key spkr (l_map t)) in
    if ignored words then
      let ign := S (l_ign t spkr) in
      let x := {| s_src := src; s_chan := chan; s_spkr := spkr; s_start := ms b; s_end := ms e; s_line := l_line t; s_elem := l_elem t;
                  s_label := label_of line; s_id := id_of spkr nb ign; s_excl := true; s_first := []; s_last := [] |} in
      Ok {| l_ps := l_ps t; l_map := add_to spkr x (l_map t); l_ign := (fun k => if str_eqb k spkr then ign else l_ign t k);
            l_line := S (l_line t); l_elem := l_elem t; l_cats := l_cats t |}
    else
      let* (ps, v) := parse_line fuel (map ascii_of_N words) (l_ps t) in
      let x := {| s_src := src; s_chan := chan; s_spkr := spkr; s_start := ms b; s_end := ms e; s_line := l_line t; s_elem := l_elem t + 1;
                  s_label := label_of line; s_id := id_of spkr nb (l_ign t spkr); s_excl := false; s_first := vs_start v; s_last := vs_end v |} in
      Ok {| l_ps := ps; l_map := add_to spkr x (l_map t); l_ign := l_ign t; l_line := S (l_line t); l_elem := l_elem t + 1; l_cats := l_cats t |}.
Fixpoint steps (fuel : nat) (ls : list str) (t : lstate) : res lstate :=
  match ls with [] => Ok t | l :: r => let* t := step fuel l t in steps fuel r t end.

(** stm_inputparser.cpp:253-287 for one speaker: consecutive segments with tokens are attached *)
Definition as_segment (x : sseg) : segment := {| sg_first := s_first x; sg_last := s_last x; sg_begin := s_start x; sg_end := s_end x |}.
Definition attach_speech (h : links) (speech : list sseg) : links :=
  if Nat.ltb 1 (List.length speech) then attach_segments h None (map as_segment speech) else h.
(** stm_inputparser.cpp:60-311 [loadFile], for a file that can be opened: the tokens, the speeches
    and the categories *)
Definition load (fuel : nat) (file : str) : res (pstate * list (list sseg) * list cat) :=
  let* t := steps fuel (getlines [] file) first_state in
  let set := map snd (l_map t) in
  let ps := {| ps_toks := ps_toks (l_ps t); ps_links := fold_left attach_speech set (ps_links (l_ps t)) |} in
  match set with
  | [] => Exit
  | _ => Ok (ps, set, l_cats t)
  end.
End Numbers.
