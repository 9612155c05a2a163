(** Model of asclite's segmenter: the iteration over groups of overlapping segments. *)
From Coq Require Import List ZArith NArith Arith Bool.
From Verif Require Import Base Store_Model.
Import ListNotations.
Local Open Scope Z_scope.
Local Open Scope res_scope.

(** The parts of a segment (segment.h) the segmenter and the evaluation map look at; times in
    milliseconds; [r_id] stands for the address. *)
Record rseg := { r_id : nat; r_src : str; r_ch : str; r_start : Z; r_end : Z }.
Definition speech := list rseg.

(** The test of speech.cpp:91 and 116: same source and channel. *)
Definition at_place (src ch : str) (s : rseg) : bool := str_eqb (r_src s) src && str_eqb (r_ch s) ch.

(** speech.cpp:83-103 [NextSegment]: the loop, with the variable last_endTime. *)
Fixpoint next_from (last_end t : Z) (src ch : str) (sp : speech) : option rseg :=
  match sp with
  | [] => None
  | s :: r =>
    if at_place src ch s then
      if (t <? r_end s) && (last_end <=? t) then Some s else next_from (r_end s) t src ch r
    else next_from last_end t src ch r
  end.
Definition next_segment (t : Z) (src ch : str) (sp : speech) : option rseg := next_from 0 t src ch sp.

(** speech.cpp:108-126 [GetSegmentsByTime]; the division of ints rounds towards zero. *)
Definition middle (s : rseg) : Z := Z.quot (r_end s + r_start s) 2.
Definition segments_by_time (from to : Z) (src ch : str) (sp : speech) : list rseg :=
  filter (fun s => at_place src ch s && ((from <=? middle s) && (middle s <? to))) sp.

(** ctmstmrttm_segmentor.cpp:288-308 [GetFirstSegment]. *)
Definition int_max : Z := 2147483647.
Fixpoint first_from (best : option rseg) (min_time t : Z) (src ch : str) (set : list speech) : option rseg :=
  match set with
  | [] => best
  | sp :: r =>
    match next_segment t src ch sp with
    | Some s => if r_start s <? min_time then first_from (Some s) (r_start s) t src ch r
                else first_from best min_time t src ch r
    | None => first_from best min_time t src ch r
    end
  end.
Definition first_segment (t : Z) (src ch : str) (set : list speech) : option rseg :=
  first_from None int_max t src ch set.

(** ctmstmrttm_segmentor.cpp:227-255 [GetLastOverlapingSegment]: one pass of the for loop,
    then the while loop. *)
Fixpoint overlap_pass (src ch : str) (set : list speech) (last : rseg) (again : bool) : rseg * bool :=
  match set with
  | [] => (last, again)
  | sp :: r =>
    match next_segment (r_end last) src ch sp with
    | Some s => if r_start s <? r_end last then overlap_pass src ch r s true else overlap_pass src ch r last again
    | None => overlap_pass src ch r last again
    end
  end.
Fixpoint last_overlapping (fuel : nat) (src ch : str) (set : list speech) (last : rseg) : res rseg :=
  match fuel with
  | O => NoFuel
  | S f => let (l, again) := overlap_pass src ch set last false in
           if again then last_overlapping f src ch set l else Ok l
  end.

(** std::set<string>: byte-wise lexicographic order, no element twice. *)
Fixpoint str_leb (a b : str) : bool :=
  match a, b with
  | [], _ => true
  | _ :: _, [] => false
  | x :: a', y :: b' => if N.eqb x y then str_leb a' b' else N.ltb x y
  end.
Fixpoint set_place (x : str) (l : list str) : list str :=
  match l with
  | [] => [x]
  | y :: r => if str_leb x y then x :: l else y :: set_place x r
  end.
Definition set_insert (x : str) (l : list str) : list str :=
  if existsb (str_eqb x) l then l else set_place x l.

(** Members of the segmenter (ctmstmrttm_segmentor.h:70-80, segmentor.h:59); [g_refs] is the
    address of the reference set it was last prepared for. *)
Record seg_state := { g_refs : option nat; g_srcs : list str; g_chans : smap (list str);
                      g_src : str; g_ch : str; g_cur : option rseg }.
Definition new_segmenter : seg_state :=
  {| g_refs := None; g_srcs := []; g_chans := []; g_src := []; g_ch := []; g_cur := None |}.

(** The nested loops at ctmstmrttm_segmentor.cpp:56-64 and 92-100. *)
Definition chans_of (m : smap (list str)) (src : str) : list str :=
  match massoc m src with Some l => l | None => [] end.
Definition add_place (acc : list str * smap (list str)) (s : rseg) : list str * smap (list str) :=
  (set_insert (r_src s) (fst acc),
   mput (snd acc) (r_src s) (set_insert (r_ch s) (chans_of (snd acc) (r_src s)))).
Definition collect_places (set : list speech) : list str * smap (list str) :=
  fold_left (fun acc sp => fold_left add_place sp acc) set ([], []).

(** ctmstmrttm_segmentor.cpp:69-78: the first file and channel; [*begin()] of an empty set is
    undefined. *)
Definition start_iteration (addr : option nat) (srcs : list str) (chans : smap (list str))
  (set : list speech) : res seg_state :=
  match srcs with
  | [] => Undef
  | src :: srcs' =>
    match chans_of chans src with
    | [] => Undef
    | ch :: chs' =>
      Ok {| g_refs := addr; g_srcs := srcs'; g_chans := mput chans src chs';
            g_src := src; g_ch := ch; g_cur := first_segment 0 src ch set |}
    end
  end.

(** ctmstmrttm_segmentor.cpp:47-79 [Reset]: the lists are built only for another set of
    references than last time. *)
Definition reset (st : seg_state) (addr : nat) (set : list speech) : res seg_state :=
  if (match g_refs st with Some a => Nat.eqb a addr | None => false end)
  then start_iteration (g_refs st) (g_srcs st) (g_chans st) set
  else let (srcs, chans) := collect_places set in start_iteration (Some addr) srcs chans set.

(** ctmstmrttm_segmentor.cpp:81-117 [ResetGeneric]; the speeches of all systems in the order
    of the map, one after the other. *)
Definition reset_generic (st : seg_state) (set : list speech) : res seg_state :=
  let (srcs, chans) := collect_places set in start_iteration (g_refs st) srcs chans set.

(** A segments group; the place and the interval used to select the segments are kept with it,
    the program has them in the segmenter's members and local variables. *)
Record group := { gp_src : str; gp_ch : str; gp_from : Z; gp_to : Z;
                  gp_refs : list (list rseg); gp_hyps : list (list rseg) }.

Definition non_empty (l : list rseg) : bool := match l with [] => false | _ => true end.
Definition select (from to : Z) (src ch : str) (set : list speech) : list (list rseg) :=
  filter non_empty (map (segments_by_time from to src ch) set).

(** ctmstmrttm_segmentor.cpp:191-221: the next segment, or the next channel, or the next file. *)
Definition advance (st : seg_state) (to : Z) (set : list speech) : res seg_state :=
  match first_segment to (g_src st) (g_ch st) set with
  | Some s => Ok {| g_refs := g_refs st; g_srcs := g_srcs st; g_chans := g_chans st;
                    g_src := g_src st; g_ch := g_ch st; g_cur := Some s |}
  | None =>
    match chans_of (g_chans st) (g_src st) with
    | ch :: chs' =>
      Ok {| g_refs := g_refs st; g_srcs := g_srcs st; g_chans := mput (g_chans st) (g_src st) chs';
            g_src := g_src st; g_ch := ch; g_cur := first_segment 0 (g_src st) ch set |}
    | [] =>
      match g_srcs st with
      | [] => Ok {| g_refs := g_refs st; g_srcs := []; g_chans := g_chans st;
                    g_src := g_src st; g_ch := g_ch st; g_cur := None |}
      | src :: srcs' => start_iteration (g_refs st) (src :: srcs') (g_chans st) set
      end
    end
  end.

(** ctmstmrttm_segmentor.cpp:163-225 [Next]. The fuel of the overlap loop is the number of
    segments plus one; without a current segment a null pointer is used. *)
Definition count_segs (set : list speech) : nat := length (concat set).
Definition next_group (st : seg_state) (refs hyps : list speech) : res (group * seg_state) :=
  match g_cur st with
  | None => Undef
  | Some c =>
    let* l := last_overlapping (S (count_segs refs)) (g_src st) (g_ch st) refs c in
    let* st' := advance st (r_end l) refs in
    Ok ({| gp_src := g_src st; gp_ch := g_ch st; gp_from := r_start c; gp_to := r_end l;
           gp_refs := select (r_start c) (r_end l) (g_src st) (g_ch st) refs;
           gp_hyps := select (r_start c) (r_end l) (g_src st) (g_ch st) hyps |}, st')
  end.

(** ctmstmrttm_segmentor.cpp:119-161 [NextGeneric]: all segments are added as hypotheses. *)
Definition next_generic (st : seg_state) (set : list speech) : res (group * seg_state) :=
  let* (g, st') := next_group st set [] in
  Ok ({| gp_src := gp_src g; gp_ch := gp_ch g; gp_from := gp_from g; gp_to := gp_to g;
         gp_refs := []; gp_hyps := gp_refs g |}, st').

(** The loop "while (HasNext()) Next()" (recording.cpp:632, uemfilter.cpp:312). *)
Fixpoint all_groups (fuel : nat) (st : seg_state) (refs hyps : list speech) : res (list group * seg_state) :=
  match g_cur st with
  | None => Ok ([], st)
  | Some _ =>
    match fuel with
    | O => NoFuel
    | S f => let* (g, st') := next_group st refs hyps in
             let* (gs, st'') := all_groups f st' refs hyps in
             Ok (g :: gs, st'')
    end
  end.
Definition segment_all (st : seg_state) (addr : nat) (refs hyps : list speech) : res (list group * seg_state) :=
  let* st1 := reset st addr refs in all_groups (S (count_segs refs)) st1 refs hyps.

(** recording.cpp:421-425. *)
Fixpoint all_generic (fuel : nat) (st : seg_state) (set : list speech) : res (list group * seg_state) :=
  match g_cur st with
  | None => Ok ([], st)
  | Some _ =>
    match fuel with
    | O => NoFuel
    | S f => let* (g, st') := next_generic st set in
             let* (gs, st'') := all_generic f st' set in
             Ok (g :: gs, st'')
    end
  end.
Definition segment_generic (st : seg_state) (set : list speech) : res (list group * seg_state) :=
  let* st1 := reset_generic st set in all_generic (S (count_segs set)) st1 set.
