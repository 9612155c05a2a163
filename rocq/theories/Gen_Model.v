(** The generic alignment of asclite ("-generic": hypotheses only) and its XML report:
    /repo/src/asclite/core/sgml_generic_reportgenerator.cpp, sgml_generic_reportgenerator.h,
    recording.cpp:246-284, 400-601, 854-872, graphalignedsegment.cpp:51-61.

    Texts are lists of bytes.  Times are milliseconds, the unit of the program; a confidence is given by
    what "%.6f" rounds it to, in millionths.  The aligner is a function from the group to the columns of
    the alignment (its results are the subject of Graph_Model); the groups are those of
    Segm_Model.segment_generic, seen as in Skip_Model.  Messages are not modelled. *)
From Coq Require Import String.
From Coq Require Import List ZArith NArith Arith Bool.
From Verif Require Segm_Model Scores_Model.
From Verif Require Import Base Sgml_Model Skip_Model.
Import ListNotations.
Local Open Scope res_scope.
Local Open Scope list_scope.

(** token.h, segment.h, speechset.h: what the report reads of a token, its segment and the set of its
    system; times of a token without times are negative *)
Record tok := { k_text : str; k_t1 : Z; k_t2 : Z; k_conf : option Z; k_spkr : str; k_title : str; k_file : str; k_chan : str }.
(** graphalignedtoken.h: one token or NULL per dimension *)
Definition column := list (option tok).

(** ** The systems *)
(** recording.cpp:272-282: the name of a system *)
Definition title_of (file title : str) : str := match title with [] => file | _ => title end.
(** std::map<string, SpeechSet*>: sorted by the name, one value each *)
Fixpoint map_put {A} (k : str) (v : A) (m : list (str * A)) : list (str * A) :=
  match m with
  | [] => [(k, v)]
  | (k', v') :: r =>
      if Scores_Model.same k k' then (k, v) :: r
      else if Segm_Model.str_leb k k' then (k, v) :: m else (k', v') :: map_put k v r
  end.
(** sgml_generic_reportgenerator.h:34-50, recording.cpp:246-284 [Load]: the map of the sets that will be
    aligned, and the titles and file names of the report; [s] is a file name, a title and what was read
    from the file *)
Definition load_step {A} (st : list (str * A) * list (str * str)) (s : str * str * A) : list (str * A) * list (str * str) :=
  let '(file, title, set) := s in
  (map_put (title_of file title) set (fst st), snd st ++ [(title_of file title, file)]).
Definition load_generic {A} (l : list (str * str * A)) : list (str * A) * list (str * str) := fold_left load_step l ([], []).

(** ** The alignment *)
(** recording.cpp:421-600: the groups in their order; those that are not skipped are aligned and added to
    the report.  No empty hypothesis is added here. *)
Fixpoint align_generic (c : config) (align : group -> bool -> list column) (gs : list group) : res (list (list column)) :=
  match gs with
  | [] => Ok []
  | g :: r =>
      let* o := decide c g in
      match o with
      | Aligned b => let* _ := total_duration g in let* l := align_generic c align r in Ok (align g b :: l)
      | Skipped _ => align_generic c align r
      end
  end.

(** ** The report *)
Definition TAB : str := [9%N].
(** sgml_generic_reportgenerator.cpp:68-69 *)
Definition input_line (s : str * str) : str := TAB ++ B "<input" ++ attr "title" (fst s) ++ attr "filename" (snd s) ++ B " />" ++ NL.
(** sgml_generic_reportgenerator.cpp:75-87: the loop goes on, so that the last token that is there gives the file and the channel *)
Definition place_step (p : str * str) (t : option tok) : str * str := match t with Some t => (k_file t, k_chan t) | None => p end.
Definition place_of (c : column) : str * str := fold_left place_step c ([], []).
Definition not_empty (s : str) : bool := match s with [] => false | _ => true end.
(** sgml_generic_reportgenerator.cpp:99-140 *)
Definition word_line (t : option tok) : str :=
  TAB ++ TAB ++ B "<word"
  ++ (match t with
      | Some t =>
          flag_attr (0 <=? k_t1 t)%Z "bt" (fixed 3 (k_t1 t)) ++ flag_attr (0 <=? k_t2 t)%Z "et" (fixed 3 (k_t2 t))
          ++ (match k_conf t with Some c => attr "conf" (fixed 6 c) | None => [] end)
          ++ flag_attr (not_empty (k_spkr t)) "speaker" (k_spkr t) ++ attr "input" (k_title t)
      | None => []
      end)
  ++ B ">" ++ (match t with Some t => k_text t | None => [] end) ++ B "</word>" ++ NL.
(** sgml_generic_reportgenerator.cpp:142-144 *)
Definition blank_word : str := TAB ++ TAB ++ B "<word></word>" ++ NL.
(** sgml_generic_reportgenerator.cpp:73-147; [n] is the number of systems *)
Definition column_text (n : nat) (c : column) : str :=
  let p := place_of c in
  TAB ++ B "<putative" ++ flag_attr (not_empty (fst p)) "file" (fst p) ++ flag_attr (not_empty (snd p)) "channel" (snd p) ++ B ">" ++ NL
  ++ concat (map word_line c)
  ++ (if length c <? n then concat (repeat blank_word (n - length c)) else [])
  ++ TAB ++ B "</putative>" ++ NL.
(** sgml_generic_reportgenerator.cpp:65-151 *)
Definition report_text (systems : list (str * str)) (l : list (list column)) : str :=
  B "<?xml version=" ++ QUOTE ++ B "1.0" ++ QUOTE ++ B " encoding=" ++ QUOTE ++ B "UTF-8" ++ QUOTE ++ B "?>" ++ NL
  ++ B "<rover>" ++ NL
  ++ concat (map input_line systems)
  ++ concat (map (fun g => concat (map (column_text (length systems)) g)) l)
  ++ B "</rover>" ++ NL.
(** recording.cpp:266-283, 400-601, 870: a whole run, from the systems and the groups of the segmenter *)
Definition generic_report {A} (c : config) (segmenter : list (str * A) -> list group) (align : group -> bool -> list column)
    (l : list (str * str * A)) : res str :=
  let (sets, systems) := load_generic l in
  let* cols := align_generic c align (segmenter sets) in
  Ok (report_text systems cols).

(** ** Where it goes *)
(** recording.cpp:854-862: [where_] is 0 if one of the outputs asked for is stdout *)
Definition where_to (outputs : list str) : Z := if existsb (fun o => Scores_Model.same o (B "stdout")) outputs then 0%Z else 1%Z.
(** sgml_generic_reportgenerator.cpp:34-63, 153-154; [opens] says which files can be opened, and what is
    written to a file that is not open is lost *)
Inductive dest := ToFile (name : str) | ToStdout | Lost.
Definition file_name (outdir : str) : str := match outdir with [] => B "generic-report.xml" | _ => outdir ++ B "/generic-report.xml" end.
Definition generate (where_ : Z) (outdir : str) (opens : str -> bool) : dest :=
  let where' := (if (where_ =? 1)%Z then if opens (file_name outdir) then where_ else 1%Z else where_) in
  if (where' =? 1)%Z then if opens (file_name outdir) then ToFile (file_name outdir) else Lost else ToStdout.
