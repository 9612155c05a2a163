(** The alignment log of asclite ("-F 6" and "-F 7"): comma separated lines for the tokens of the groups and
    for the results.  /repo/src/asclite/core/logger.cpp, logger.h, token.cpp:422-514,
    segmentsgroup.cpp:269-407, graphalignedsegment.cpp:188-225, stt_scorer.cpp:127-157,
    recording.cpp:400-601 and 603-846 (what they log).

    Texts are lists of bytes.  Times are milliseconds; a confidence is given by what "%.3f" rounds it to, in
    thousandths; numbers of tokens, segments and groups fit a long.  A segment comes with its tokens in the
    order of ToTopologicalOrderedStruct (Links_Model). *)
From Coq Require Import String.
From Coq Require Import List ZArith NArith Arith Bool.
From Verif Require Scores_Model.
From Verif Require Import Base Sgml_Model.
Import ListNotations.
Local Open Scope list_scope.

(** token.h, timedobject.h; negative times are no times; the numbers of the tokens before and after *)
Record tok := { t_id : Z; t_t1 : Z; t_t2 : Z; t_text : str; t_conf : option Z; t_prev : list Z; t_next : list Z }.
(** segment.h without its tokens *)
Record seg := { s_id : Z; s_t1 : Z; s_t2 : Z; s_spkr : str; s_file : str; s_chan : str }.
(** segmentsgroup.h: a list of segments with their tokens per reference speaker and per hypothesis;
    [g_spare] is the number a segment made for the group gets *)
Record group := { g_id : Z; g_refs : list (list (seg * list tok)); g_hyps : list (list (seg * list tok)); g_spare : Z }.

(** ** One token *)
(** token.cpp:424-466, segmentsgroup.cpp:318-334 *)
Definition time_text (t : Z) : str := if (0 <=? t)%Z then fixed 3 t else [].
(** token.cpp:483-511 *)
Fixpoint ids_text (l : list Z) : str :=
  match l with [] => [] | [i] => int_text i | i :: r => int_text i ++ B "|" ++ ids_text r end.
Definition COMMA : str := B ",".
(** token.cpp:422-514 [GetCSVInformation] *)
Definition csv (s : seg) (t : tok) : str :=
  int_text (s_id s) ++ COMMA ++ time_text (s_t1 s) ++ COMMA ++ time_text (s_t2 s) ++ COMMA ++ s_spkr s ++ COMMA ++ int_text (t_id t) ++ COMMA
  ++ time_text (t_t1 t) ++ COMMA ++ time_text (t_t2 t) ++ COMMA ++ t_text t ++ COMMA
  ++ (match t_conf t with Some c => fixed 3 c | None => [] end) ++ COMMA ++ ids_text (t_prev t) ++ COMMA ++ ids_text (t_next t).
(** segmentsgroup.cpp:288, 293 *)
Definition no_csv : str := B ",,,,,,,,,,".
(** segmentsgroup.cpp:318-345: a segment without tokens *)
Definition seg_csv (s : seg) : str :=
  int_text (s_id s) ++ COMMA ++ time_text (s_t1 s) ++ COMMA ++ time_text (s_t2 s) ++ COMMA ++ s_spkr s ++ B ",,,,,,,".

(** ** A group *)
(** segmentsgroup.cpp:299, 341, 365, 403 *)
Definition line (type : str) (id : Z) (file chan : str) (r h : str) : str :=
  type ++ COMMA ++ int_text id ++ COMMA ++ file ++ COMMA ++ chan ++ B ",," ++ r ++ COMMA ++ h.
(** segmentsgroup.cpp:280-349 *)
Definition ref_lines (generic : bool) (type : str) (id : Z) (x : seg * list tok) : list str :=
  let (s, l) := x in
  let h := if generic then [] else no_csv in
  match l with
  | [] => [line type id (s_file s) (s_chan s) (seg_csv s) h]
  | _ => map (fun t => line type id (s_file s) (s_chan s) (csv s t) h) l
  end.
(** segmentsgroup.cpp:352-406 *)
Definition hyp_lines (type : str) (id : Z) (x : seg * list tok) : list str :=
  let (s, l) := x in
  match l with
  | [] => [line type id (s_file s) (s_chan s) no_csv (seg_csv s)]
  | _ => map (fun t => line type id (s_file s) (s_chan s) no_csv (csv s t)) l
  end.
(** segmentsgroup.cpp:269-407 [LoggingAlignment] *)
Definition group_lines (generic : bool) (type : str) (g : group) : list str :=
  concat (map (fun l => concat (map (ref_lines generic type (g_id g)) l)) (g_refs g))
  ++ concat (map (fun l => concat (map (hyp_lines type (g_id g)) l)) (g_hyps g)).

(** ** A run with references *)
(** recording.cpp:622-623 *)
Definition header : str :=
  B "Aligned,SegGrpID,File,Channel,Eval,RefSegID,RefSegBT,RefSegET,RefSpkrID,RefTknID,RefTknBT,RefTknET,RefTknTxt,RefTknConf,RefTknPrev,RefTknNext,HypSegID,HypSegBT,HypSegET,HypSpkrID,HypTknID,HypTknBT,HypTknET,HypTknTxt,HypTknConf,HypTknPrev,HypTknNext".
(** recording.cpp:646-652: a group without hypothesis gets a segment of no speech *)
Definition made_segment (id : Z) : seg * list tok := ({| s_id := id; s_t1 := 0; s_t2 := 0; s_spkr := []; s_file := []; s_chan := [] |}, []).
Definition completed (g : group) : group :=
  match g_hyps g with [] => {| g_id := g_id g; g_refs := g_refs g; g_hyps := [[made_segment (g_spare g)]]; g_spare := g_spare g |} | _ => g end.
(** recording.cpp:653-657; the first segment of a speaker without segments is undefined *)
Definition empty_gap (g : group) : res bool :=
  match g_hyps g, g_refs g with
  | [], [sp] => match sp with [] => Undef | (s, _) :: _ => Ok (Scores_Model.same (s_spkr s) (B "inter_segment_gap")) end
  | _, _ => Ok false
  end.
Local Open Scope res_scope.
(** recording.cpp:635-841; [skipped] is the choice of Skip_Model *)
Fixpoint ref_log (skipped : group -> bool) (gs : list group) : res (list str) :=
  match gs with
  | [] => Ok []
  | g0 :: r =>
      let* quiet := empty_gap g0 in
      let g := completed g0 in
      let* rest := ref_log skipped r in
      Ok ((if skipped g && negb quiet then group_lines false (B "NO") g else [])
          ++ (if quiet then [] else group_lines false (B "SG") g) ++ rest)
  end.
Fixpoint systems_log (skipped : group -> bool) (l : list (list group)) : res (list str) :=
  match l with
  | [] => Ok []
  | gs :: r => let* a := ref_log skipped gs in let* b := systems_log skipped r in Ok (a ++ b)
  end.
(** tokenalignment.cpp:21-28 *)
Inductive result := RC | RS | RP | RD | RI.
Definition short (r : result) : str := match r with RC => B "C" | RS => B "S" | RP => B "P" | RD => B "D" | RI => B "I" end.
(** a scored word: the number of the group of its segment, the result, the reference and the hypothesis *)
Record row := { r_grp : Z; r_res : result; r_ref : option (seg * tok); r_hyp : option (seg * tok) }.
(** stt_scorer.cpp:127-157; the file and the channel of the reference if there is one *)
Definition row_line (x : row) : str :=
  let place := match r_ref x, r_hyp x with
               | Some (s, _), _ => (s_file s, s_chan s)
               | None, Some (s, _) => (s_file s, s_chan s)
               | None, None => ([], [])
               end in
  let side := fun o : option (seg * tok) => match o with Some (s, t) => csv s t | None => no_csv end in
  B "YES," ++ int_text (r_grp x) ++ COMMA ++ fst place ++ COMMA ++ snd place ++ COMMA ++ short (r_res x) ++ COMMA ++ side (r_ref x) ++ COMMA ++ side (r_hyp x).
(** the alignment log of a run: recording.cpp:603-846, then the scorer *)
Definition run_log (skipped : group -> bool) (systems : list (list group)) (rows : list row) : res (list str) :=
  let* a := systems_log skipped systems in Ok (header :: a ++ map row_line rows).

(** ** A run without references *)
(** recording.cpp:416-417 *)
Definition generic_header : str :=
  B "Aligned,SegGrpID,File,Channel,Eval[,RefSegID,RefSegBT,RefSegET,RefSpkrID,RefTknID,RefTknBT,RefTknET,RefTknTxt,RefTknConf,RefTknPrev,RefTknNext]*".
(** graphalignedsegment.cpp:202-219: the last token that is there gives the file and the channel *)
Definition place_step (p : str * str) (x : option (seg * tok)) : str * str := match x with Some (s, _) => (s_file s, s_chan s) | None => p end.
Definition cell_text (x : option (seg * tok)) : str := match x with Some (s, t) => COMMA ++ csv s t | None => B ",,,,,,,,,,," end.
(** graphalignedsegment.cpp:188-225 [LoggingAlignment] *)
Definition column_line (id : Z) (c : list (option (seg * tok))) : str :=
  let p := fold_left place_step c ([], []) in
  B "YES," ++ int_text id ++ COMMA ++ fst p ++ COMMA ++ snd p ++ COMMA ++ concat (map cell_text c).
(** recording.cpp:423-600; [skipped] as above, [align] is the aligner *)
Definition generic_lines (skipped : group -> bool) (align : group -> list (list (option (seg * tok)))) (g : group) : list str :=
  group_lines true (B "SG") g ++ (if skipped g then group_lines true (B "NO") g else map (column_line (g_id g)) (align g)).
Definition generic_log (skipped : group -> bool) (align : group -> list (list (option (seg * tok)))) (gs : list group) : list str :=
  generic_header :: concat (map (generic_lines skipped align) gs).

(** ** The logger *)
(** logger.cpp:84-100 [LevelToString] *)
Definition prefix (level : Z) : str :=
  if (level =? 1)%Z then B "[  FATAL  ] " else if (level =? 2)%Z then B "[  ERROR  ] " else if (level =? 3)%Z then B "[  WARN   ] "
  else if (level =? 4)%Z then B "[  INFO   ] " else if (level =? 5)%Z then B "[  DEBUG  ] " else if (level =? 6)%Z then B "[ALIGNMENT] "
  else B "[  UNKWN  ] ".
(** logger.cpp:68-82 [log] with the level of the log *)
Definition log (log_level : Z) (m : Z * str) : str :=
  let (level, message) := m in
  if ((level =? 6) && (log_level =? 7))%Z then prefix level ++ message ++ NL
  else if ((level <=? log_level) && negb (log_level =? 7))%Z then prefix level ++ message ++ NL
  else [].
Definition print (log_level : Z) (l : list (Z * str)) : str := concat (map (log log_level) l).
(** logger.h:69 [isAlignLogON] *)
Definition align_on (log_level : Z) : bool := ((log_level =? 6) || (log_level =? 7))%Z.
(** recording.cpp:416, 569, 587, 594, 622, 822, 828, stt_scorer.cpp:127: every line of the alignment log is made only then *)
Definition emitted (log_level : Z) (lines : list str) : list str := if align_on log_level then lines else [].
