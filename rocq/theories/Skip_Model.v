(** Model of the choice of the groups of segments that asclite aligns,
    /repo/src/asclite/core/recording.cpp and segmentsgroup.cpp. *)
From Coq Require Import List ZArith QArith Qround Bool.
From Verif Require Import Base.
Import ListNotations.
Local Open Scope res_scope.
Local Open Scope Z_scope.

(** What is used of a segment here: exclusion from scoring, the number of its flattened tokens and
    its times. *)
Record gseg := { excluded : bool; ntok : Z; sbegin : Z; send : Z }.
(** segmentsgroup.h: a group; one list of segments per reference speaker and per hypothesis. *)
Record group := { gid : Z; refs : list (list gseg); hyps : list (list gseg) }.

(** The properties read by recording.cpp:605-617: limits on speakers, the only group to score, the
    memory limit in GB, the two limits of difficulty in GB, the compression switches. *)
Record config := { max_speakers : Z; min_speakers : Z; only_group : option Z; max_gb : Q;
                   difficulty_gb : option Q; min_difficulty_gb : option Q; compression : bool; force_compression : bool }.

(** atoi to an unsigned int: 32 bits. *)
Definition to_uint (z : Z) : Z := z mod 4294967296.
(** ceil(1024*1024*1024*gb/sizeof(int)) converted to an unsigned 64 bit number. *)
Definition cells_of_gb (gb : Q) : res Z :=
  let c := Qceiling (inject_Z 1073741824 * gb / inject_Z 4) in
  if (c <? 0) || (18446744073709551616 <=? c) then Undef else Ok c.

(** segmentsgroup.cpp:66-79 [isIgnoreInScoring] *)
Definition is_ignore_in_scoring (g : group) : bool := existsb (existsb excluded) (refs g).
(** segmentsgroup.cpp:146-176 [GetDifficultyNumber], with 64 bits. *)
Definition wrap64 (z : Z) : Z := z mod 18446744073709551616.
Definition speech_tokens (l : list gseg) : Z := fold_left (fun n s => wrap64 (n + ntok s)) l 0.
Definition difficulty_number (g : group) : Z :=
  let mul := fun r l => wrap64 (r * (speech_tokens l + 1)) in
  fold_left mul (hyps g) (fold_left mul (refs g) 1).
(** segmentsgroup.cpp:409-480 [GetMinTime], [GetMaxTime], [GetTotalDuration] *)
Definition int_max : Z := 2147483647.
Definition min_time (g : group) : Z :=
  fold_left (fun m s => if sbegin s <? m then sbegin s else m) (concat (refs g) ++ concat (hyps g)) int_max.
Definition max_time (g : group) : Z :=
  fold_left (fun m s => if m <? send s then send s else m) (concat (refs g) ++ concat (hyps g)) 0.
Definition total_duration (g : group) : res Z :=
  let d := max_time g - min_time g in if d <=? 0 then Exit else Ok d.

(** recording.cpp:646-658: a group without hypothesis gets an empty one. *)
Definition empty_segment : gseg := {| excluded := true; ntok := 0; sbegin := 0; send := 0 |}.
Definition with_hypothesis (g : group) : group :=
  match hyps g with
  | [] => {| gid := gid g; refs := refs g; hyps := [[empty_segment]] |}
  | _ => g
  end.

Inductive reason := Ignored | OtherGroup | ManySpeakers | FewSpeakers | TooDifficult | TooEasy | TooLarge.
(** Aligned, with or without the compressed matrix, or skipped with a warning. *)
Inductive outcome := Aligned (compressed : bool) | Skipped (why : reason).

(** recording.cpp:690-803, and with the same text 457-562: the tests in their order. *)
Definition decide (c : config) (g : group) : res outcome :=
  let* max_nb_gb := cells_of_gb (max_gb c) in
  let* max_nb_2gb := cells_of_gb 2 in
  let cellnumber := difficulty_number g in
  let nrefs := Z.of_nat (length (refs g)) in
  if is_ignore_in_scoring g then Ok (Skipped Ignored) else
  if match only_group c with Some id => negb (gid g =? id) | None => false end then Ok (Skipped OtherGroup) else
  if to_uint (max_speakers c) <? nrefs then Ok (Skipped ManySpeakers) else
  if nrefs <? to_uint (min_speakers c) then Ok (Skipped FewSpeakers) else
  let* hard := match difficulty_gb c with
               | Some gb => let* n := cells_of_gb gb in Ok (n <? cellnumber)
               | None => Ok false
               end in
  if hard : bool then Ok (Skipped TooDifficult) else
  let* easy := match min_difficulty_gb c with
               | Some gb => let* n := cells_of_gb gb in Ok (cellnumber <? n)
               | None => Ok false
               end in
  if easy : bool then Ok (Skipped TooEasy) else
  if (max_nb_gb <? cellnumber) || (max_nb_2gb <? cellnumber) then
    if negb (compression c || force_compression c) then Ok (Skipped TooLarge) else Ok (Aligned true)
  else Ok (Aligned (force_compression c)).

(** recording.cpp:635-845 for the groups of one system: the groups that are aligned, as they are
    passed to the aligner, and those that are skipped.  The graph asks for the duration of the
    group (graph.cpp:126). *)
Fixpoint align_groups (c : config) (gs : list group) : res (list (group * bool) * list (group * reason)) :=
  match gs with
  | [] => Ok ([], [])
  | g0 :: rest =>
    let g := with_hypothesis g0 in
    let* o := decide c g in
    match o with
    | Aligned b =>
      let* _ := total_duration g in
      let* (al, sk) := align_groups c rest in
      Ok ((g, b) :: al, sk)
    | Skipped r =>
      let* (al, sk) := align_groups c rest in
      Ok (al, (g, r) :: sk)
    end
  end.
