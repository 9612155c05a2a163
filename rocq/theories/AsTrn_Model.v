(** Model of asclite's transcripts: src/asclite/core/trn_inputparser.cpp, trntrn_segmentor.cpp. *)
From Coq Require Import String List NArith Arith Bool Ascii.
From Verif Require Import Base Store_Model Segm_Model Alt_Model.
Import ListNotations.
Local Open Scope res_scope.

(** * Reading *)

(** getline(file, line, '\n') until it fails: what follows the last newline is a line if there is
    anything. *)
Fixpoint getlines (cur l : str) : list str :=
  match l with
  | [] => match cur with [] => [] | _ => [rev cur] end
  | c :: r => if (c =? 10)%N then rev cur :: getlines [] r else getlines (c :: cur) r
  end.

(** string::find_last_of *)
Fixpoint last_of (p : N -> bool) (l : str) : option nat :=
  match l with
  | [] => None
  | c :: r => match last_of p r with Some i => Some (S i) | None => if p c then Some 0 else None end
  end.

(** trn_inputparser.cpp:53: find_first_of looks for one of the characters, not for both in a row. *)
Definition is_comment (l : str) : bool := match l with c :: _ => (c =? 59)%N | [] => false end.
(** trn_inputparser.cpp:59.  npos + 1 is 0. *)
Definition uid_index (l : str) : nat := match last_of (N.eqb 40) l with Some i => S i | None => 0 end.
(** trn_inputparser.cpp:60-62.  The size is unsigned: it is longer than any line if there is no
    closing parenthesis or one before [uid_index] only, and substr stops at the end. *)
Definition uid_of (l : str) : str :=
  let k := uid_index l in
  match last_of (N.eqb 41) l with
  | Some j => if Nat.leb k j then firstn (j - k) (skipn k l) else skipn k l
  | None => skipn k l
  end.
(** trn_inputparser.cpp:82: line.substr(0, uidindex-1), 0 - 1 being npos *)
Definition words_of (l : str) : str := match uid_index l with O => l | S i => firstn i l end.
(** trn_inputparser.cpp:63-72; [spu] if the type of ids is spu_id, else an error is logged *)
Definition speaker_of (spu : bool) (uid : str) : str :=
  if spu then match last_of (fun c => (c =? 95) || (c =? 45))%N uid with Some i => firstn i uid | None => uid end
  else bytes "undefined"%string.

(** A segment: id, speaker, line, number, and the tokens it begins and ends with. *)
Record useg := { u_id : str; u_spkr : str; u_line : nat; u_elem : nat; u_graph : vseg }.

(** trn_inputparser.cpp:74-87: the entry of the map for the speaker is made if there is none; a
    std::map is in the order of its keys. *)
Fixpoint put (k : str) (x : useg) (m : list (str * list useg)) : list (str * list useg) :=
  match m with
  | [] => [(k, [x])]
  | (k', l) :: r =>
      if str_eqb k k' then (k', l ++ [x]) :: r
      else if str_leb k k' then (k, [x]) :: m
      else (k', l) :: put k x r
  end.

(** trn_inputparser.cpp:49-89.  The lines have no null byte. *)
Fixpoint load_from (fuel : nat) (spu : bool) (ln el : nat) (ls : list str) (st : pstate) (m : list (str * list useg))
    : res (pstate * list (str * list useg)) :=
  match ls with
  | [] => Ok (st, m)
  | l :: r =>
      if is_comment l then load_from fuel spu (S ln) el r st m
      else
        let uid := uid_of l in
        let spkr := speaker_of spu uid in
        let* (st, v) := parse_line fuel (map ascii_of_N (words_of l)) st in
        let seg := {| u_id := 40%N :: uid ++ [41%N]; u_spkr := spkr; u_line := ln; u_elem := el; u_graph := v |} in
        load_from fuel spu (S ln) (S el) r st (put spkr seg m)
  end.
(** trn_inputparser.cpp:30-113 [loadFile], for a file that can be opened *)
Definition load (fuel : nat) (spu : bool) (file : str) : res (pstate * list (list useg)) :=
  let* (st, m) := load_from fuel spu 0 0 (getlines [] file) empty_state [] in
  match m with
  | [] => Exit
  | _ => Ok (st, map snd m)
  end.

(** * Pairing *)

(** The members of the segmentor (segmentor.h, trntrn_segmentor.h); [t_refs] is the address of the
    references. *)
Record tstate := { t_refs : option nat; t_list : list str; t_cur : str }.
(** trntrn_segmentor.cpp:26-49 [Reset]; the first element of an empty set is undefined *)
Definition reset (addr : nat) (refs : list (list useg)) (st : tstate) : res tstate :=
  let same := match t_refs st with Some a => Nat.eqb a addr | None => false end in
  let l := if same then t_list st else fold_left (fun l s => set_insert (u_id s) l) (concat refs) [] in
  match l with
  | [] => Undef
  | x :: r => Ok {| t_refs := Some addr; t_list := r; t_cur := x |}
  end.
(** trntrn_segmentor.cpp:56-77, 79-98: the loop over the speeches has no bound, so that one past
    the last is looked at *)
Fixpoint find_set (id : str) (set : list (list useg)) : res useg :=
  match set with
  | [] => Undef
  | sp :: r => match find (fun s => str_eqb (u_id s) id) sp with Some s => Ok s | None => find_set id r end
  end.
Definition look (id : str) (set : list (list useg)) : res (list useg) :=
  match set with [] => Ok [] | _ => let* s := find_set id set in Ok [s] end.
(** trntrn_segmentor.cpp:51-111 [Next]: the references and the hypotheses of the group *)
Definition next (refs hyps : list (list useg)) (st : tstate) : res (list useg * list useg * tstate) :=
  let* r := look (t_cur st) refs in
  let* h := look (t_cur st) hyps in
  Ok (r, h, match t_list st with
            | [] => {| t_refs := t_refs st; t_list := []; t_cur := [] |}
            | x :: l => {| t_refs := t_refs st; t_list := l; t_cur := x |}
            end).
(** recording.cpp:632-634: while (HasNext()) Next() *)
Fixpoint groups (fuel : nat) (refs hyps : list (list useg)) (st : tstate) : res (list (list useg * list useg) * tstate) :=
  match fuel with
  | O => NoFuel
  | S f =>
      match t_cur st with
      | [] => Ok ([], st)
      | _ =>
          let* (g, st1) := next refs hyps st in
          let* (gs, st2) := groups f refs hyps st1 in
          Ok (g :: gs, st2)
      end
  end.
(** recording.cpp:630-634: the groups of one system *)
Definition pair_up (addr : nat) (refs hyps : list (list useg)) (st : tstate) : res (list (list useg * list useg) * tstate) :=
  let* st := reset addr refs st in
  groups (S (S (List.length (t_list st)))) refs hyps st.
(** segmentor.cpp:27-31: a new segmentor *)
Definition fresh_segmentor : tstate := {| t_refs := None; t_list := []; t_cur := [] |}.
