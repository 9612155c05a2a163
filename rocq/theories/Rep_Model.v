(** Model of asclite's record of aligned words, their classification and the counters of the
    "rsum" and "sum" reports. *)
From Coq Require Import List ZArith NArith Arith Bool String.
From Verif Require Import Base Store_Model Token_Model.
Import ListNotations.
Local Open Scope res_scope.

(** The tokens and segments that alignments point to: parent segment, times and optional flag
    of a token; times, source, channel and speaker of a segment; the test
    Token::IsEquivalentTo (modelled in Token_Model), as a function of two tokens. *)
Record world := { w_seg : nat -> nat; w_time : nat -> timed; w_optional : nat -> bool;
  w_equiv : nat -> nat -> bool;
  w_stime : nat -> timed; w_src : nat -> str; w_ch : nat -> str; w_spk : nat -> str }.

(** A column of a GraphAlignedSegment: one token or NULL per dimension, hypotheses first.
    graphalignedsegment.cpp:227-265 [GetNonNullReference] and [GetNonNullHypothesis]. *)
Definition column := list (option nat).
Fixpoint first_some (l : list (option nat)) : option nat :=
  match l with [] => None | Some x :: _ => Some x | None :: r => first_some r end.
Definition col_ref (hri : nat) (c : column) : option nat := first_some (skipn hri c).
Definition col_hyp (hri : nat) (c : column) : option nat := first_some (firstn hri c).

(** graphalignedsegment.cpp:285-304 [GetNextNonNullReference]: over the columns after this one. *)
Fixpoint next_ref (hri : nat) (cols : list column) : option nat :=
  match cols with
  | [] => None
  | c :: r => match col_ref hri c with Some x => Some x | None => next_ref hri r end
  end.

(** segmentsgroup.cpp:85-104 [GetRefSegmentByTime]: the first overlapping reference segment of
    the group, otherwise the program stops. *)
Fixpoint by_time (w : world) (segs : list nat) (hyp : nat) : res nat :=
  match segs with
  | [] => Exit
  | s :: r => if overlap_with (w_stime w s) (w_time w hyp) then Ok s else by_time w r hyp
  end.

(** alignment.cpp:110-149: the loop that looks for the segment of an inserted token. *)
Fixpoint pick (fuel : nat) (w : world) (segs : list nat) (last next : option nat) (hyp : nat)
  (left right : bool) : res nat :=
  match fuel with
  | O => NoFuel
  | S n =>
    let '(seg0, left1, right1) :=
      match last, left with
      | Some r, false => (Some (w_seg w r), true, right)
      | _, _ => if negb right then (option_map (w_seg w) next, left, true) else (None, left, right)
      end in
    let* (seg, right2) :=
      match seg0 with
      | Some s => Ok (s, right1)
      | None =>
        if right1 then let* s := by_time w segs hyp in Ok (s, right1)
        else match next with Some r => Ok (w_seg w r, true) | None => Undef end
      end in
    if negb (overlap_with (w_time w hyp) (w_stime w seg)) &&
       (0 <=? to_start (w_time w hyp))%Z && (0 <=? to_end (w_time w hyp))%Z
    then pick n w segs last next hyp left1 right2
    else Ok seg
  end.

(** The aligned segments by their reference segment: the two maps of Alignment and
    AlignedSpeech (alignment.cpp:69-80, alignedspeech.cpp:52-68) as one list; the order of
    the maps (by address) is not modelled. *)
Definition align := list (nat * aseg).
Fixpoint aget (al : align) (s : nat) : aseg :=
  match al with [] => new_aseg | (k, a) :: r => if Nat.eqb k s then a else aget r s end.
Fixpoint aput (al : align) (s : nat) (a : aseg) : align :=
  match al with
  | [] => [(s, a)]
  | (k, b) :: r => if Nat.eqb k s then (k, a) :: r else (k, b) :: aput r s a
  end.

(** alignment.cpp:98-162: the loop over the columns. *)
Fixpoint add_columns (w : world) (hri : nat) (segs : list nat) (key : str) (last : option nat)
  (cols : list column) (al : align) : res align :=
  match cols with
  | [] => Ok al
  | c :: r =>
    let* (seg, last') :=
      match col_ref hri c with
      | Some x => Ok (w_seg w x, Some x)
      | None =>
        match col_hyp hri c with
        | None => Undef
        | Some h => let* s := pick 4 w segs last (next_ref hri r) h false false in Ok (s, last)
        end
      end in
    let* (_, a) := add_token_alignment (fun x => Nat.eqb (w_seg w x) seg) (aget al seg) (col_ref hri c) key (col_hyp hri c) in
    add_columns w hri segs key last' r (aput al seg a)
  end.

(** alignment.cpp:164-179: no column at all. *)
Definition touch (al : align) (s : nat) : align := aput al s (aget al s).
Definition add_gas (w : world) (hri : nat) (segs : list nat) (key : str) (cols : list column) (al : align) : res align :=
  match cols with
  | [] => Ok (fold_left touch segs al)
  | _ => add_columns w hri segs key None cols al
  end.

(** stt_scorer.cpp:43-62: which optional words are forgiven. *)
Record scoring := { s_optionally : str; s_speaker : bool; s_map : smap str }.
Definition opt_ref (o : scoring) : bool :=
  str_eqb (s_optionally o) (bytes "both") || str_eqb (s_optionally o) (bytes "ref").
Definition opt_hyp (o : scoring) : bool :=
  if opt_ref o then false
  else str_eqb (s_optionally o) (bytes "both") || str_eqb (s_optionally o) (bytes "hyp").

(** stt_scorer.cpp:81-125: the result of one system in one row. *)
Definition score_eval (w : world) (o : scoring) (ref hyp : option nat) : res aresult :=
  match ref, hyp with
  | None, None => Undef
  | None, Some h => Ok (if w_optional w h && opt_hyp o then RCorrect else RIns)
  | Some r, None => Ok (if w_optional w r && opt_ref o then RCorrect else RDel)
  | Some r, Some h =>
    Ok (if w_equiv w r h then
          if s_speaker o then
            if str_eqb (get_ref (s_map o) (w_src w (w_seg w h)) (w_ch w (w_seg w h)) (w_spk w (w_seg w h)))
                       (w_spk w (w_seg w r)) then RCorrect else RSpkSub
          else RCorrect
        else RSubst)
  end.

(** stt_scorer.cpp:70-79: the reference token is read once per row; the evaluation of every
    system is fetched with operator[] and used. *)
Fixpoint score_row (w : world) (o : scoring) (ref : option nat) (systems : list str) (t : talign) : res talign :=
  match systems with
  | [] => Ok t
  | k :: r =>
    match mindex None t k with
    | (None, _) => Undef
    | (Some e, t') =>
      let* v := score_eval w o ref (ev_token e) in
      score_row w o ref r (mput t' k (Some {| ev_token := ev_token e; ev_result := v |}))
    end
  end.
Fixpoint score_rows (w : world) (o : scoring) (systems : list str) (rows : list talign) : res (list talign) :=
  match rows with
  | [] => Ok []
  | t :: r =>
    let* ref := get_reference_token t in
    let* t' := score_row w o ref systems t in
    let* r' := score_rows w o systems r in
    Ok (t' :: r')
  end.
Fixpoint score_align (w : world) (o : scoring) (systems : list str) (al : align) : res align :=
  match al with
  | [] => Ok []
  | (s, a) :: r =>
    let* rows := score_rows w o systems (as_rows a) in
    let* r' := score_align w o systems r in
    Ok ((s, {| as_rows := rows; as_index := as_index a |}) :: r')
  end.

(** rawsys_reportgenerator.h RAWSYS_Datas, without the sums of logarithms of confidences. *)
Record datas := { d_segs : nat; d_refs : nat; d_corr : nat; d_sub : nat; d_spk : nat;
  d_del : nat; d_ins : nat; d_segerrs : nat }.
Definition no_datas : datas :=
  {| d_segs := 0; d_refs := 0; d_corr := 0; d_sub := 0; d_spk := 0; d_del := 0; d_ins := 0; d_segerrs := 0 |}.
Definition d_errors (d : datas) : nat := d_sub d + d_ins d + d_del d + d_spk d.

(** rawsys_reportgenerator.cpp:36-89 *)
Definition add_correct (d : datas) : datas :=
  {| d_segs := d_segs d; d_refs := S (d_refs d); d_corr := S (d_corr d); d_sub := d_sub d; d_spk := d_spk d;
     d_del := d_del d; d_ins := d_ins d; d_segerrs := d_segerrs d |}.
Definition add_subst (d : datas) : datas :=
  {| d_segs := d_segs d; d_refs := S (d_refs d); d_corr := d_corr d; d_sub := S (d_sub d); d_spk := d_spk d;
     d_del := d_del d; d_ins := d_ins d; d_segerrs := d_segerrs d |}.
Definition add_spkerr (d : datas) : datas :=
  {| d_segs := d_segs d; d_refs := S (d_refs d); d_corr := d_corr d; d_sub := d_sub d; d_spk := S (d_spk d);
     d_del := d_del d; d_ins := d_ins d; d_segerrs := d_segerrs d |}.
Definition add_del (d : datas) : datas :=
  {| d_segs := d_segs d; d_refs := S (d_refs d); d_corr := d_corr d; d_sub := d_sub d; d_spk := d_spk d;
     d_del := S (d_del d); d_ins := d_ins d; d_segerrs := d_segerrs d |}.
Definition add_ins (d : datas) : datas :=
  {| d_segs := d_segs d; d_refs := d_refs d; d_corr := d_corr d; d_sub := d_sub d; d_spk := d_spk d;
     d_del := d_del d; d_ins := S (d_ins d); d_segerrs := d_segerrs d |}.
Definition add_seg (err : bool) (d : datas) : datas :=
  {| d_segs := S (d_segs d); d_refs := d_refs d; d_corr := d_corr d; d_sub := d_sub d; d_spk := d_spk d;
     d_del := d_del d; d_ins := d_ins d; d_segerrs := if err then S (d_segerrs d) else d_segerrs d |}.

(** rawsys_reportgenerator.cpp:256-304: the rows of one segment. The flag of errors is [None]
    when a row without result ends the report (264-268). *)
Fixpoint count_rows (key : str) (rows : list talign) (d : datas) (err : bool) : res (datas * option bool) :=
  match rows with
  | [] => Ok (d, Some err)
  | t :: r =>
    match fst (mindex None t key) with
    | None => Undef
    | Some e =>
      match ev_result e, ev_token e with
      | RUnavailable, _ => Ok (d, None)
      | RCorrect, _ => count_rows key r (add_correct d) err
      | RSubst, Some _ => count_rows key r (add_subst d) true
      | RSpkSub, Some _ => count_rows key r (add_spkerr d) true
      | RDel, _ => count_rows key r (add_del d) true
      | RIns, Some _ => count_rows key r (add_ins d) true
      | RSubst, None | RSpkSub, None | RIns, None => Undef
      | RReference, _ | RInvalid, _ => count_rows key r d err
      end
    end
  end.

(** rawsys_reportgenerator.cpp:241-311: all segments, for the speakers in [m] and new ones. *)
Definition dget (m : smap datas) (k : str) : datas := match massoc m k with Some d => d | None => no_datas end.
Fixpoint count_align (w : world) (key : str) (al : align) (m : smap datas) : res (smap datas * bool) :=
  match al with
  | [] => Ok (m, true)
  | (s, a) :: r =>
    let* (d, e) := count_rows key (as_rows a) (dget m (w_spk w s)) false in
    match e with
    | None => Ok (mput m (w_spk w s) d, false)
    | Some err => count_align w key r (mput m (w_spk w s) (add_seg err d))
    end
  end.

(** rawsys_reportgenerator.cpp:876-921 [Generate]: one report per system, with the same
    counters (m_MapDatas is never emptied). The tables from which the reports are printed. *)
Fixpoint reports (w : world) (systems : list str) (al : align) (m : smap datas) : res (list (smap datas)) :=
  match systems with
  | [] => Ok []
  | k :: r =>
    let* (m', _) := count_align w k al m in
    let* l := reports w r al m' in
    Ok (m' :: l)
  end.

(** rawsys_reportgenerator.cpp:316-360 and Statistics::Compute: the sum of one column. *)
Definition total (f : datas -> nat) (m : smap datas) : nat := fold_right (fun e n => f (snd e) + n) 0 m.
