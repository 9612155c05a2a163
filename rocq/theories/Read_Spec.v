(** Vocabulary of the properties of the reading of STM and CTM files. *)
From Coq Require Import List NArith ZArith Bool.
From Verif Require Import Base Chan_Model Read_Model.
Import ListNotations.

(** Blanks, and the fields of a line: the pieces between them. *)
Definition is_blank (c : N) : Prop := c = 32%N \/ c = 9%N \/ c = 10%N.
Inductive Fields : str -> list str -> Prop :=
| f_nil b : Forall is_blank b -> Fields b []
| f_cons b w r ws : Forall is_blank b -> w <> [] -> Forall (fun c => ~ is_blank c) w ->
    match r with c :: _ => is_blank c | [] => True end -> Fields r ws -> Fields (b ++ w ++ r) (w :: ws).
Definition no_nul (l : str) : Prop := Forall (fun c => c <> 0%N) l.
(** The line as it is used: in lower case unless the case matters. *)
Definition cased (case_sense : bool) (l : str) : str := if case_sense then l else map lower l.

(** A segment of an STM file: five fields, an optional label in "<...>" and the words. *)
Definition stm_of (numS : str -> Z) (ws : list str) (s : sline) : Prop :=
  match ws with
  | f :: c :: k :: b :: e :: r =>
      file s = f /\ chan s = c /\ l_spkr s = k /\ s_t1 s = numS b /\ s_t2 s = numS e /\
      match r with
      | (60%N :: x) :: r' => l_label s = Some (60%N :: x) /\ Fields (text s) r'
      | _ => l_label s = None /\ Fields (text s) r
      end
  | _ => False
  end.

(** A word of a CTM file: five fields, an optional confidence and probability.  A begin time may
    be marked as bad with "&&". *)
Definition ctm_of (numC : str -> Z) (ws : list str) (w : cword) : Prop :=
  match ws with
  | f :: c :: b :: d :: t :: r =>
      conv w = f /\ turn w = c /\ sp w = t /\ dur w = numC d /\
      (match b with
       | 38%N :: 38%N :: x => c_bad w = true /\ t1 w = numC x
       | _ => c_bad w = false /\ t1 w = numC b
       end) /\
      (match r with
       | [] => c_conf w = None /\ c_corr w = None
       | x :: r' =>
           ((map lower x = [110; 97]%N /\ c_conf w = None) \/ (map lower x <> [110; 97]%N /\ c_conf w = Some (numC x))) /\
           c_corr w = match r' with y :: _ => Some (numC y) | [] => None end
       end)
  | _ => False
  end.

(** A line of a file: it ends with its newline or with the file. *)
Definition Line (l r : str) : Prop :=
  l <> [] /\ exists x, Forall (fun c => c <> 10%N) x /\ (l = x ++ [10%N] \/ (l = x /\ r = [])).
Definition has_newline (l : str) : Prop := exists x, l = x ++ [10%N].
(** A line of an STM file without a segment: a comment of two ";" or "*", or white space. *)
Definition stm_skips (l : str) : Prop :=
  (exists x, l = 59%N :: 59%N :: x) \/ (exists x, l = 42%N :: 42%N :: x) \/
  Forall (fun c => c = 32%N \/ (9 <= c <= 13)%N) l.
(** What an STM file says: a segment for each line; the lines without one have their newline. *)
Inductive StmFile (numS : str -> Z) (cs : bool) : str -> list sline -> Prop :=
| sf_nil : StmFile numS cs [] []
| sf_skip l r ss : Line l r -> has_newline l -> stm_skips l -> StmFile numS cs r ss -> StmFile numS cs (l ++ r) ss
| sf_seg l r s ss : Line l r -> ~ stm_skips l -> parse_stm_line numS cs l = Ok s ->
    StmFile numS cs r ss -> StmFile numS cs (l ++ r) (s :: ss).
(** What a CTM file says: a word for each line that does not begin with ";". *)
Inductive CtmFile (numC : str -> Z) (cs : bool) : str -> list word -> Prop :=
| cf_nil : CtmFile numC cs [] []
| cf_skip l r ws : Line l r -> hd_error l = Some 59%N -> CtmFile numC cs r ws -> CtmFile numC cs (l ++ r) ws
| cf_word l r w ws : Line l r -> hd_error l <> Some 59%N -> parse_ctm_line numC cs l = Ok w ->
    CtmFile numC cs r ws -> CtmFile numC cs (l ++ r) (the_word (c_mword w) :: ws).

(** The same as texts: the fields of the lines that hold a segment or a word. *)
Inductive StmText (cs : bool) : str -> list (list str) -> Prop :=
| st_nil : StmText cs [] []
| st_skip l r wss : Line l r -> has_newline l -> stm_skips l -> StmText cs r wss -> StmText cs (l ++ r) wss
| st_seg l r ws wss : Line l r -> ~ stm_skips l -> no_nul l -> Fields (cased cs l) ws -> (5 <= length ws)%nat ->
    StmText cs r wss -> StmText cs (l ++ r) (ws :: wss).
Inductive CtmText (cs : bool) : str -> list (list str) -> Prop :=
| ct_nil : CtmText cs [] []
| ct_skip l r wss : Line l r -> hd_error l = Some 59%N -> CtmText cs r wss -> CtmText cs (l ++ r) wss
| ct_word l r ws wss : Line l r -> hd_error l <> Some 59%N -> no_nul l -> Fields (cased cs l) ws -> (5 <= length ws)%nat ->
    Forall (fun w => (length w < 500)%nat) (firstn 7 ws) -> CtmText cs r wss -> CtmText cs (l ++ r) (ws :: wss).
