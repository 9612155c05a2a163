(** The checks and filters of the inputs of asclite: /repo/src/asclite/core/spkrautooverlap.cpp:29-61 and
    [Recording::Filter] of recording.cpp:289-395, with the evaluation map of Uem_Model and the map of
    speakers of Store_Model.  The messages are not modelled. *)
From Coq Require Import List ZArith NArith Arith Bool.
From Verif Require Import Base Store_Model Segm_Model Uem_Model.
Import ListNotations.
Local Open Scope list_scope.
Local Open Scope res_scope.

(** spkrautooverlap.cpp:37-58: the loop, with the previous segment *)
Fixpoint overlap_loop (prev : option rseg) (sp : speech) (errs : nat) : nat :=
  match sp with
  | [] => errs
  | s :: r =>
      overlap_loop (Some s) r
        match prev with
        | Some p => if (r_start s <? r_end p)%Z && str_eqb (r_src p) (r_src s) && str_eqb (r_ch p) (r_ch s) then S errs else errs
        | None => errs
        end
  end.
(** spkrautooverlap.cpp:29-61 [ProcessSingleSpeech] *)
Definition self_overlaps (sp : speech) : nat := overlap_loop None sp 0.

(** recording.cpp:54-55: the filters *)
Inductive filt := Auto | Evaluation.
Definition single (m : list uem) (o : origin) (k : filt) (sp : speech) : res (nat * speech) :=
  match k with Auto => Ok (self_overlaps sp, sp) | Evaluation => process_speech m o sp end.
(** recording.cpp:303-304, 318-319 *)
Fixpoint process_set (m : list uem) (o : origin) (k : filt) (l : list speech) : res (nat * list speech) :=
  match l with
  | [] => Ok (0, [])
  | sp :: r => let* (e, sp') := single m o k sp in let* (e', r') := process_set m o k r in Ok (e + e', sp' :: r')
  end.
(** recording.cpp:311-323: the systems in the order of the map *)
Fixpoint process_systems (m : list uem) (o : origin) (k : filt) (l : list (str * list speech)) : res (nat * list (str * list speech)) :=
  match l with
  | [] => Ok (0, [])
  | (t, set) :: r => let* (e, set') := process_set m o k set in let* (e', r') := process_systems m o k r in Ok (e + e', (t, set') :: r')
  end.
Definition REF : str := [114; 101; 102]%N.
Definition HYP : str := [104; 121; 112]%N.
Definition BOTH : str := [98; 111; 116; 104]%N.
(** What the run has: references, systems, number of errors. *)
Record inputs := { n_refs : list speech; n_hyps : list (str * list speech); n_errs : nat }.
(** recording.cpp:293-325: one filter of the first pass; [side] is its property ".option", [o] the origin of the hypotheses *)
Definition pass1 (m : list uem) (o : origin) (side : str) (k : filt) (n : inputs) : res inputs :=
  let* n := if str_eqb side REF || str_eqb side BOTH then
              let* (e, r) := process_set m IsRef k (n_refs n) in Ok {| n_refs := r; n_hyps := n_hyps n; n_errs := n_errs n + e |}
            else Ok n in
  if str_eqb side HYP || str_eqb side BOTH then
    let* (e, h) := process_systems m o k (n_hyps n) in Ok {| n_refs := n_refs n; n_hyps := h; n_errs := n_errs n + e |}
  else Ok n.
Fixpoint passes (m : list uem) (o : origin) (side : filt -> str) (l : list filt) (n : inputs) : res inputs :=
  match l with [] => Ok n | k :: r => let* n := pass1 m o (side k) k n in passes m o side r n end.
(** uemfilter.cpp:588-591, 284-291 and recording.cpp:326-335: the second pass.  [times] gives the times of the words of a
    segment, [has] tells whether the references already have gaps; the gaps of each round are added. *)
Fixpoint pass2 (m : list uem) (use_file isg has : bool) (times : nat -> list (Z * Z)) (l : list filt) (n : inputs) : res (list gap) :=
  match l with
  | [] => Ok []
  | Auto :: r => pass2 m use_file isg has times r n
  | Evaluation :: r =>
      let* g := if isg && negb has then make_gaps m use_file (n_refs n) (map (fun s => (s, times (r_id s))) (concat (flat_map snd (n_hyps n)))) else Ok [] in
      let* g' := pass2 m use_file isg has times r n in Ok (g ++ g')
  end.
(** recording.cpp:343-373: is there a pair of segments the map relates?  [name] gives the speaker of a segment.  A gap added to
    the references has the speaker inter_segment_gap; those are not looked at. *)
Definition related (sm : smap str) (name : nat -> str) (r h : rseg) : bool :=
  str_eqb (r_src r) (r_src h) && str_eqb (r_ch r) (r_ch h) && str_eqb (get_ref sm (r_src r) (r_ch r) (name (r_id r))) (name (r_id h)).
Definition found (sm : smap str) (name : nat -> str) (n : inputs) : bool :=
  existsb (fun r => existsb (related sm name r) (concat (flat_map snd (n_hyps n)))) (concat (n_refs n)).
(** recording.cpp:338-384 *)
Definition map_errors (opt check : bool) (sm : smap str) (name : nat -> str) (n : inputs) : nat :=
  if opt && negb (found sm name n) && check then 1 else 0.
(** recording.cpp:289-395 [Filter]: what is scored, with the gaps; Exit is the end of the program with an error *)
Definition run (m : list uem) (use_file isg has : bool) (o : origin) (side : filt -> str) (filters : list filt) (times : nat -> list (Z * Z))
    (opt check : bool) (sm : smap str) (name : nat -> str) (refs : list speech) (hyps : list (str * list speech))
    : res (list speech * list (str * list speech) * list gap) :=
  let* n := passes m o side filters {| n_refs := refs; n_hyps := hyps; n_errs := 0 |} in
  let* g := pass2 m use_file isg has times filters n in
  if Nat.eqb (n_errs n + map_errors opt check sm name n) 0 then Ok (n_refs n, n_hyps n, g) else Exit.
