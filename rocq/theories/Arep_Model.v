(** The SGML report of asclite ("-o sgml"):
    /repo/src/asclite/core/sgml_reportgenerator.cpp, sgml_reportgenerator.h.

    Texts are lists of bytes.  An alignment is what the generator reads of it for one system: the
    aligned speeches in the order of the iterator, each with its aligned segments in the order of the
    iterator (both are maps with pointers as keys, so any order), each with its token alignments.
    Texts, optional and fragment marks of a token are those of Token_Model.  Times are thousandths and
    confidences millionths, the decimals the report has room for; sequence numbers fit an int.
    Messages are not modelled. *)
From Coq Require Import String Ascii.
From Coq Require Import List ZArith NArith Arith Bool.
From Verif Require Import Base Sgml_Model.
Import ListNotations.
Local Open Scope res_scope.
Local Open Scope list_scope.

(** ** The alignment *)
(** token.h: GetFragmentStatus *)
Inductive frag := FNone | FBegin | FEnd.
(** token.h; [tk_spkr] is the speaker of the segment and [tk_file] the file of the speech set the token
    belongs to *)
Record tok := { tk_text : str; tk_opt : bool; tk_frag : frag; tk_t1 : Z; tk_t2 : Z; tk_conf : option Z;
                tk_spkr : str; tk_file : str }.
(** tokenalignment.cpp:21-28 *)
Inductive result := RC | RS | RP | RD | RI | RR | RX | RU.
(** tokenalignment.h: the reference token and the evaluation of the system, [None] is a null pointer *)
Record cell := { c_ref : option tok; c_eval : option (result * option tok) }.
(** alignedsegment.h, segment.h *)
Record seg := { sg_id : str; sg_label : str; sg_source : str; sg_chan : str; sg_num : Z; sg_t1 : Z; sg_t2 : Z;
                sg_spkr : str; sg_cells : list cell }.
(** speechset.h:21-28 *)
Inductive lkind := LLabel | LCategory.
(** alignedspeech.h and the speech set of its reference speech *)
Record speech := { sp_file : str; sp_labels : list (lkind * label); sp_segs : list seg }.
(** the properties read: align.case_sensitive, align.fragment_are_correct, align.optionally = both,
    align.speakeroptimization *)
Record opts := { o_case : bool; o_frag : bool; o_both : bool; o_spkr : bool }.
(** std::sort by a number: any function of this type *)
Definition sorter := forall A : Type, (A -> Z) -> list A -> list A.

(** timedobject.h:46 *)
Definition real (t1 t2 : Z) : bool := ((0 <=? t1) && (0 <=? t2))%Z.
Definition tok_real (t : tok) : bool := real (tk_t1 t) (tk_t2 t).

(** ** Speakers *)
(** sgml_reportgenerator.h:40-83 *)
Record spk := { k_name : str; k_seq : Z; k_segs : list seg }.
(** sgml_reportgenerator.h:64-69 *)
Definition add_segment (k : spk) (g : seg) : spk :=
  {| k_name := k_name k; k_seq := if (sg_num g <? k_seq k)%Z then sg_num g else k_seq k; k_segs := k_segs k ++ [g] |}.
(** sgml_reportgenerator.cpp:117-134: the speakers, and the place of the one that got the segment *)
Fixpoint place (l : list spk) (g : seg) : list spk * nat :=
  match l with
  | [] => ([add_segment {| k_name := sg_spkr g; k_seq := sg_num g; k_segs := [] |} g], 0)
  | k :: r => if Scores_Model.same (sg_spkr g) (k_name k) then (add_segment k g :: r, 0)
              else let (r, i) := place r g in (k :: r, S i)
  end.
(** sgml_reportgenerator.h:54-57 *)
Definition sort_segs (S : sorter) (k : spk) : spk :=
  {| k_name := k_name k; k_seq := k_seq k; k_segs := S seg sg_num (k_segs k) |}.
Fixpoint sort_at (S : sorter) (l : list spk) (i : nat) : res (list spk) :=
  match l, i with
  | [], _ => Undef
  | k :: r, O => Ok (sort_segs S k :: r)
  | k :: r, Datatypes.S i => let* r := sort_at S r i in Ok (k :: r)
  end.
(** the variables of the loop: the speakers, [speaker], the names of the files and fileNamesSet *)
Record group := { g_spks : list spk; g_cur : option nat; g_ref : str; g_hyp : str; g_set : bool }.
(** sgml_reportgenerator.cpp:103-115 *)
Definition hyp_name (g : seg) : res (option str) :=
  match sg_cells g with
  | [] => Ok None
  | c :: _ => match c_eval c with None => Undef | Some (_, None) => Ok None | Some (_, Some t) => Ok (Some (tk_file t)) end
  end.
(** sgml_reportgenerator.cpp:101-135 *)
Fixpoint add_segs (l : list seg) (s : group) : res group :=
  match l with
  | [] => Ok s
  | g :: r =>
      let* n := (if g_set s then Ok None else hyp_name g) in
      let (ks, i) := place (g_spks s) g in
      add_segs r {| g_spks := ks; g_cur := Some i; g_ref := g_ref s;
                    g_hyp := match n with Some h => h | None => g_hyp s end;
                    g_set := match n with Some _ => true | None => g_set s end |}
  end.
(** sgml_reportgenerator.cpp:91-139: at the end of a speech the last speaker is sorted, a null pointer
    if there was no segment yet *)
Fixpoint add_speeches (S : sorter) (l : list speech) (s : group) : res group :=
  match l with
  | [] => Ok s
  | p :: r =>
      let* s := add_segs (sp_segs p) {| g_spks := g_spks s; g_cur := g_cur s; g_ref := if g_set s then g_ref s else sp_file p;
                                        g_hyp := g_hyp s; g_set := g_set s |} in
      match g_cur s with
      | None => Undef
      | Some i =>
          let* ks := sort_at S (g_spks s) i in
          add_speeches S r {| g_spks := ks; g_cur := g_cur s; g_ref := g_ref s; g_hyp := g_hyp s; g_set := g_set s |}
      end
  end.

(** ** Auxiliary values *)
Definition hyp_of (c : cell) : option tok := match c_eval c with Some (_, h) => h | None => None end.
Definition has (f : tok -> bool) (t : option tok) : bool := match t with Some t => f t | None => false end.
Definition is_some {A} (x : option A) : bool := match x with Some _ => true | None => false end.
(** m_bRefHasTimes, m_bHypHasTimes, m_bRefHasConf, m_bHypHasConf *)
Record auxs := { x_rt : bool; x_ht : bool; x_rc : bool; x_hc : bool }.
(** sgml_reportgenerator.cpp:171-179, 276-316 *)
Definition aux_cell (x : auxs) (c : cell) : auxs :=
  {| x_rt := x_rt x || has tok_real (c_ref c); x_ht := x_ht x || has tok_real (hyp_of c);
     x_rc := x_rc x || has (fun t => is_some (tk_conf t)) (c_ref c);
     x_hc := x_hc x || has (fun t => is_some (tk_conf t)) (hyp_of c) |}.
Definition aux_seg (x : auxs) (g : seg) : auxs := fold_left aux_cell (sg_cells g) x.
Definition aux_spk (x : auxs) (k : spk) : auxs := fold_left aux_seg (k_segs k) x.
Definition auxs_of (l : list spk) : auxs :=
  fold_left aux_spk l {| x_rt := false; x_ht := false; x_rc := false; x_hc := false |}.

(** ** Texts *)
(** tolower in the C locale, token.cpp:216-221 *)
Definition lower (c : N) : N := if ((65 <=? c) && (c <=? 90))%N then (c + 32)%N else c.
(** sgml_reportgenerator.cpp:486-508, between the quotes *)
Definition tok_text (o : opts) (t : tok) : str :=
  (if tk_opt t then B "(" else []) ++ (match tk_frag t with FEnd => B "-" | _ => [] end)
  ++ (if o_case o then tk_text t else map lower (tk_text t))
  ++ (match tk_frag t with FBegin => B "-" | _ => [] end) ++ (if tk_opt t then B ")" else []).
(** tokenalignment.cpp:21-28, sgml_reportgenerator.cpp:383-388 *)
Definition short (r : result) : str :=
  match r with RC => B "C" | RS => B "S" | RP => B "S" | RD => B "D" | RI => B "I" | RR => B "R" | RX => B "X" | RU => B "U" end.
Definition correct (r : result) : bool := match r with RC => true | _ => false end.
(** sgml_reportgenerator.cpp:390-397, 401-408 *)
Definition side_text (o : opts) (r : result) (t : option tok) : str :=
  match t with Some t => quoted (tok_text o t) | None => if correct r then quoted [] else [] end.
(** sgml_reportgenerator.cpp:410-468 *)
Definition time_text (t : option tok) : str :=
  match t with Some t => if tok_real t then fixed 3 (tk_t1 t) ++ B "+" ++ fixed 3 (tk_t2 t) else [] | None => [] end.
Definition conf_text (t : option tok) : str :=
  match t with Some t => match tk_conf t with Some c => fixed 6 c | None => [] end | None => [] end.
Definition spkr_text (t : option tok) : str := match t with Some t => tk_spkr t | None => [] end.
Definition sub_text (r : result) (t : option tok) : str :=
  match t with Some _ => match r with RP => B "true" | _ => B "false" end | None => [] end.
Definition aux_field (on : bool) (s : str) : str := if on then B "," ++ s else [].
(** sgml_reportgenerator.cpp:369-484 [GenerateTokenAlignment] *)
Definition cell_text (o : opts) (x : auxs) (c : cell) : res str :=
  match c_eval c with
  | None => Undef
  | Some (RU, _) => Ok []
  | Some (r, h) =>
      Ok (short r ++ B "," ++ side_text o r (c_ref c) ++ B "," ++ side_text o r h
          ++ aux_field (x_rt x) (time_text (c_ref c)) ++ aux_field (x_ht x) (time_text h)
          ++ aux_field (x_rc x) (conf_text (c_ref c)) ++ aux_field (x_hc x) (conf_text h)
          ++ aux_field (o_spkr o) (spkr_text h) ++ aux_field (o_spkr o) (sub_text r h))
  end.
(** sgml_reportgenerator.cpp:260-271 *)
Fixpoint cells_text (o : opts) (x : auxs) (l : list cell) : res str :=
  match l with
  | [] => Ok []
  | [c] => cell_text o x c
  | c :: r => let* t := cell_text o x c in let* u := cells_text o x r in Ok (t ++ B ":" ++ u)
  end.
(** sgml_reportgenerator.cpp:318-367 [HandleWordAux] *)
Definition aux_list (o : opts) (x : auxs) : list str :=
  (if x_rt x then [B "r_t1+t2"] else []) ++ (if x_ht x then [B "h_t1+t2"] else [])
  ++ (if x_rc x then [B "r_conf"] else []) ++ (if x_hc x then [B "h_conf"] else [])
  ++ (if o_spkr o then [B "h_spkr,h_isSpkrSub"] else []).
Definition word_aux (o : opts) (x : auxs) : str :=
  flag_attr (x_rt x || x_ht x || x_rc x || x_hc x || o_spkr o) "word_aux" (commas (aux_list o x)).
Definition not_empty (s : str) : bool := match s with [] => false | _ => true end.
(** sgml_reportgenerator.cpp:226-274 [GeneratePath] *)
Definition seg_text (o : opts) (x : auxs) (g : seg) : res str :=
  let* t := cells_text o x (sg_cells g) in
  Ok (B "<PATH" ++ attr "id" (sg_id g) ++ attr "word_cnt" (int_text (Z.of_nat (length (sg_cells g))))
      ++ flag_attr (not_empty (sg_label g)) "labels" (sg_label g) ++ flag_attr (not_empty (sg_source g)) "file" (sg_source g)
      ++ flag_attr (not_empty (sg_chan g)) "channel" (sg_chan g) ++ attr "sequence" (int_text (sg_num g))
      ++ flag_attr (real (sg_t1 g) (sg_t2 g)) "R_T1" (fixed 3 (sg_t1 g)) ++ flag_attr (real (sg_t1 g) (sg_t2 g)) "R_T2" (fixed 3 (sg_t2 g))
      ++ word_aux o x ++ flag_attr (o_case o) "case_sense" (B "1") ++ B ">" ++ NL ++ t ++ NL ++ B "</PATH>" ++ NL).
Fixpoint segs_text (o : opts) (x : auxs) (l : list seg) : res str :=
  match l with
  | [] => Ok []
  | g :: r => let* t := seg_text o x g in let* u := segs_text o x r in Ok (t ++ u)
  end.
(** sgml_reportgenerator.cpp:206-224 [GenerateSpeaker], 182-188 *)
Fixpoint spks_text (o : opts) (x : auxs) (l : list spk) : res str :=
  match l with
  | [] => Ok []
  | k :: r =>
      let* t := segs_text o x (k_segs k) in
      let* u := spks_text o x r in
      Ok (B "<SPEAKER" ++ attr "id" (k_name k) ++ B ">" ++ NL ++ t ++ B "</SPEAKER>" ++ NL ++ u)
  end.
(** sgml_reportgenerator.cpp:193-204 [GenerateCategoryLabel] *)
Definition kind_name (k : lkind) : string := match k with LLabel => "LABEL" | LCategory => "CATEGORY" end%string.
Definition category_text (l : lkind * label) : str := label_text (kind_name (fst l)) (snd l).
(** reportgenerator.cpp:24-32 *)
Fixpoint base_name (path : str) : str :=
  match path with
  | [] => []
  | c :: r => if existsb (N.eqb 47) r then base_name r else if (c =? 47)%N then r else path
  end.
(** sgml_reportgenerator.cpp:69-191 [GenerateSystem]; without speech the pointer to the speech set is null *)
Definition system_text (S : sorter) (o : opts) (systm date : str) (l : list speech) : res str :=
  let* s := add_speeches S l {| g_spks := []; g_cur := None; g_ref := []; g_hyp := []; g_set := false |} in
  match l with
  | [] => Undef
  | p :: _ =>
      let ks := S spk k_seq (g_spks s) in
      let* t := spks_text o (auxs_of ks) ks in
      Ok (B "<SYSTEM" ++ attr "title" (base_name systm) ++ attr "ref_fname" (g_ref s) ++ attr "hyp_fname" (g_hyp s)
          ++ attr "creation_date" date ++ attr "format" (B "2.4") ++ attr "frag_corr" (truth (o_frag o))
          ++ attr "opt_del" (truth (o_both o)) ++ attr "weight_ali" (B "FALSE") ++ attr "weight_filename" [] ++ B ">" ++ NL
          ++ concat (map category_text (sp_labels p)) ++ t ++ B "</SYSTEM>" ++ NL)
  end.

(** ** Where the reports go *)
(** sgml_reportgenerator.cpp:29-67 [Generate]: where the report of each system goes; [where_] is 1 for
    files and [opens] says which files can be opened.  What is written to a file that is not open is lost. *)
Inductive dest := ToFile (name : str) | ToStdout | Lost.
Definition file_name (outdir systm : str) : str :=
  (match outdir with [] => systm | _ => outdir ++ B "/" ++ base_name systm end) ++ B ".sgml".
Fixpoint generate (where_ : Z) (outdir : str) (opens : str -> bool) (systms : list str) : list dest :=
  match systms with
  | [] => []
  | s :: r =>
      let where' := (if (where_ =? 1)%Z then if opens (file_name outdir s) then where_ else 1%Z else where_) in
      (if (where' =? 1)%Z then if opens (file_name outdir s) then ToFile (file_name outdir s) else Lost else ToStdout)
      :: generate where' outdir opens r
  end.
