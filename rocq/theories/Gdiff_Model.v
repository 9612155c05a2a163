(** Model of the alignment by GNU diff: option -d of sclite, /repo/src/sclite/align.c:781-1443, with
    the choice of the first alternative of text.c and the word files of stm.c.

    What is simplified: the input files are already cut into utterances (a reference text and a
    hypothesis text, ids removed and looked up: AsTrn, Read, Trn models); the word files are the lists
    of their lines; diff is a function from the two word files to the lines of its output, each
    without its newline.  Every line of that output ends with a newline, so the end of the output is
    only met by a read that gives nothing.  The paths are kept as lists of steps; their ids, labels
    and the scores are left out (Path, Scores models). *)
From Coq Require Import List Arith ZArith NArith Bool.
From Verif Require Import Base Text_Model Word_Model NetDp_Model Path_Model.
From Verif Require AsStm_Model.
Import ListNotations.
Local Open Scope res_scope.
Local Open Scope nat_scope.

Definition str := list N.
(** The separators " \t\n" given to TEXT_strtok (align.c:850, 856, 998, 1003, ...).  They are single
    bytes that no longer character of a supported encoding contains, so the text is cut byte by byte. *)
Definition sep (c : N) : bool := ((c =? 32) || (c =? 9) || (c =? 10))%N.
(** text.c:924-967: all the tokens of TEXT_strtok in order *)
Definition tokens (t : str) : list str := AsStm_Model.pieces sep [] t.

(** text.c:1444-1480 [tokenize_TEXT_first_alt]: all the tokens it returns in order.  [inside] and [cnt]
    are the static variables in_alt and alt_cnt, which a new text resets. *)
Fixpoint first_alt (e : enc) (inside : bool) (cnt : nat) (ts : list str) : res (list str) :=
  match ts with
  | [] => Ok []
  | t :: r =>
      let c := hd 0%N t in
      if (c =? 123)%N then first_alt e true 0 r
      else if (c =? 125)%N then first_alt e false cnt r
      else
        let cnt := if (c =? 47)%N then S cnt else cnt in
        if negb inside || (cnt =? 0) then
          let* z := strcmp e (cstr t) (cstr [64%N]) in
          if negb (z =? 0)%Z then let* ws := first_alt e inside cnt r in Ok (t :: ws)
          else first_alt e inside cnt r
        else first_alt e inside cnt r
  end.
Definition words_of (e : enc) (text : str) : res (list str) := first_alt e false 0 (tokens text).

(** align.c:842-848, stm.c:185-190: the reference text is copied into a buffer of [cap] bytes whose
    length is remembered as [len]; [n] is the length of the text *)
Definition copy (cap len n : nat) : res (nat * nat) :=
  if len + 1 <? n then Ok (n + 1, n)
  else if n + 1 <=? cap then Ok (cap, len)
  else Undef.
(** align.c:790-868 [create_word_lists], stm.c:170-199 [dump_STM_words]: the file of the reference
    words *)
Fixpoint ref_words (e : enc) (cap len : nat) (refs : list str) : res (list str) :=
  match refs with
  | [] => Ok []
  | t :: r =>
      let* (cap, len) := copy cap len (length t) in
      let* ws := words_of e t in
      let* more := ref_words e cap len r in
      Ok (ws ++ more)
  end.
(** align.c:856-860, 1324-1359 [convert_text_to_word_list]: the file of the hypothesis words *)
Fixpoint hyp_words (hyps : list str) : list str :=
  match hyps with [] => [] | h :: r => tokens h ++ hyp_words r end.
(** stm.c:211-249 [convert_stm_to_word_list]: the text is not copied *)
Fixpoint stm_words (e : enc) (refs : list str) : res (list str) :=
  match refs with
  | [] => Ok []
  | t :: r => let* ws := words_of e t in let* more := stm_words e r in Ok (ws ++ more)
  end.

(** align.c:870-928 [process_diff_line]: sscanf "%s %s %s" into three arrays of 100 bytes *)
Definition wd (s : str) : word := new_word s 0 0 false false (-1000).
Definition process_line (e : enc) (line : str) : res (str * wstep) :=
  let ts := firstn 3 (AsStm_Model.pieces AsStm_Model.isspace [] line) in
  if forallb (fun t => length t <? 100) ts then
    let s1 := nth 0 ts [] in
    let s2 := nth 1 ts [] in
    let s3 := nth 2 ts [] in
    let iret := length ts in
    let* same := (if iret =? 2 then strcmp e (cstr s1) (cstr s2) else Ok 1%Z) in
    if (same =? 0)%Z then Ok (s1, (Some (wd s1), Some (wd s2), PCorr))
    else
      let* gt := (if iret =? 2 then strcmp e (cstr s1) (cstr [62%N]) else Ok 1%Z) in
      if (gt =? 0)%Z then Ok (s1, (None, Some (wd s2), PIns))
      else if iret =? 3 then Ok (s1, (Some (wd s1), Some (wd s3), PSub))
      else Ok (s1, (Some (wd s1), None, PDel))
  else Undef.

(** align.c:1004-1014, 1263-1273, 1409-1415: the lines up to the one whose first token is the reference
    word, or all of them in the last utterance *)
Fixpoint take (e : enc) (ctext : str) (lastu : bool) (lines : list str) : res (list wstep * list str) :=
  match lines with
  | [] => Ok ([], [])
  | l :: r =>
      let* (s1, st) := process_line e l in
      let* z := strcmp e (cstr s1) (cstr ctext) in
      if negb (z =? 0)%Z || lastu then
        let* (p, rest) := take e ctext lastu r in Ok (st :: p, rest)
      else Ok ([st], r)
  end.
(** align.c:1002-1016, 1260-1275, 1407-1417: over the reference words of an utterance *)
Fixpoint words_loop (e : enc) (lastu : bool) (ws : list str) (lines : list str) : res (list wstep * list str) :=
  match ws with
  | [] => Ok ([], lines)
  | w :: r =>
      let* (p, lines) := take e w lastu lines in
      let* (q, lines) := words_loop e lastu r lines in
      Ok (p ++ q, lines)
  end.
(** align.c:969-1034, 1391-1436: over the utterances; [n] is num_hyp or num_ref, the number of those
    that are left *)
Fixpoint deal (e : enc) (n : nat) (refs : list str) (lines : list str) : res (list (list wstep)) :=
  match refs with
  | [] => Ok []
  | t :: r =>
      let n := n - 1 in
      let* ws := words_of e t in
      let* (p, lines) := words_loop e (n =? 0) ws lines in
      let* ps := deal e n r lines in
      Ok (p :: ps)
  end.
(** align.c:930-1053 [align_trans_mode_diff] *)
Definition align_trans (e : enc) (diff : list str -> list str -> list str) (utts : list (str * str)) : res (list (list wstep)) :=
  let* rs := ref_words e 100 100 (map fst utts) in
  deal e (length utts) (map fst utts) (diff rs (hyp_words (map snd utts))).
(** align.c:1361-1443 [align_text_to_stm]: the hypothesis is a text without utterances, its lines
    [hyps] *)
Definition align_text (e : enc) (diff : list str -> list str -> list str) (refs hyps : list str) : res (list (list wstep)) :=
  let* rs := stm_words e refs in
  deal e (length refs) refs (diff rs (hyp_words hyps)).

(** align.c:1252-1296: over the segments of a channel, from [r] on.  [refs] are the segments r, r+1, ...
    up to the last of the loop; the test of align.c:1271-1272 reads
    [(… || r == r_end + (r_end == stm->num)) ? -1 : 0]. *)
Fixpoint deal_chan (e : enc) (r_end num r : nat) (refs : list str) (lines : list str) : res (list (list wstep)) :=
  match refs with
  | [] => Ok []
  | t :: more =>
      let lastu := r =? r_end + (if r_end =? num then 1 else 0) in
      let* ws := words_of e t in
      let* (p, lines) := words_loop e lastu ws lines in
      let* ps := deal_chan e r_end num (r + 1) more lines in
      Ok (p :: ps)
  end.
(** align.c:1241-1297, one channel of [align_ctm_to_stm_diff]: [stm] holds the texts of the segments, the
    channel begins at [r_st] and locate_STM_boundary has given [r_end]; [hs] are the words of
    dump_WTOKE_words *)
Definition align_chan (e : enc) (diff : list str -> list str -> list str) (stm : list str) (r_st r_end : nat) (hs : list str)
    : res (list (list wstep)) :=
  let num := length stm in
  let stop := if r_end =? num then r_end else r_end + 1 in
  let refs := firstn (stop - r_st) (skipn r_st stm) in
  let* rs := ref_words e 100 100 refs in
  deal_chan e r_end num r_st refs (diff rs hs).
