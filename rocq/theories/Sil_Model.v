(** Model of the search for common silences of ROVER, /repo/src/sclite/mfa.c, and of the loop
    over the pieces, /repo/src/sclite/rover.c. *)
From Coq Require Import List ZArith Arith Bool.
From Verif Require Import Base.
Import ListNotations.
Local Open Scope res_scope.
Local Open Scope Z_scope.

(** ctm2ctm.c:316-350 [overlap]; times are exact integers (thousandths of a second).  The first
    two assignments of the source are always overwritten. *)
Definition overlap (s1_t1 s1_t2 s2_t1 s2_t2 : Z) : Z :=
  if s1_t1 <? s2_t1 then
    if s1_t2 <? s2_t2 then s1_t2 - s2_t1 else s2_t2 - s2_t1
  else
    if s1_t2 <? s2_t2 then s1_t2 - s1_t1 else s2_t2 - s1_t1.

(** A time marked word: start and duration (wtokstr1.h). *)
Record tword := { t1 : Z; dur : Z }.
(** One input file: its words, the index of the first one that is still to do ([ctms[in]->s]) and
    the index of the last one of the conversation ([conv_end[in]], rover.c:150). *)
Record ctm := { ws : list tword; cur : Z; last_ : Z }.

Definition word_at (c : ctm) (i : Z) : res tword :=
  if i <? 0 then Undef else match nth_error (ws c) (Z.to_nat i) with Some w => Ok w | None => Undef end.
(** mfa.c:191, 267 *)
Definition end_of_time : Z := 9999999900.
(** The silence after word [i]: mfa.c:188-192, 286-287 *)
Definition gap (c : ctm) (i : Z) : res (Z * Z) :=
  let* w := word_at c i in
  let* e := if i <? last_ c then let* v := word_at c (i + 1) in Ok (t1 v) else Ok end_of_time in
  Ok (t1 w + dur w, e).

(** mfa.c:275-304 [gap_at_times]: the loop from [i], [n] rounds; the new bounds and the index. *)
Fixpoint gap_loop (n : nat) (c : ctm) (i : Z) (b e : Z) : res (option (Z * Z * Z)) :=
  match n with
  | O => Ok None
  | S m =>
    let* (gb, ge) := gap c i in
    if 0 <? overlap b e gb ge then Ok (Some (Z.max b gb, Z.min e ge, i))
    else gap_loop m c (i + 1) b e
  end.
Definition gap_at_times (c : ctm) (b e : Z) : res (option (Z * Z * Z)) :=
  if last_ c <? cur c then Ok (Some (b, e, cur c))
  else gap_loop (Z.to_nat (last_ c - cur c + 1)) c (cur c) b e.

(** mfa.c:197-205: the other files, one after the other; the indices of the cut. *)
Fixpoint others (cs : list ctm) (b e : Z) : res (option (list Z)) :=
  match cs with
  | [] => Ok (Some [])
  | c :: r =>
    let* g := gap_at_times c b e in
    match g with
    | None => Ok None
    | Some (b', e', i) =>
      let* o := others r b' e' in
      match o with None => Ok None | Some l => Ok (Some (i :: l)) end
    end
  end.
(** mfa.c:184-213: the words of the first file, [n] rounds from index [i]. *)
Fixpoint master (n : nat) (c : ctm) (cs : list ctm) (dur_ : Z) (i : Z) : res (option (list Z)) :=
  match n with
  | O => Ok None
  | S m =>
    let* (b, e) := gap c i in
    if b + dur_ <? e then
      let* o := others cs b e in
      match o with
      | Some l => Ok (Some (i :: l))
      | None => master m c cs dur_ (i + 1)
      end
    else master m c cs dur_ (i + 1)
  end.
(** mfa.c:177-222 [find_common_silence]: the indices of the last words of the piece, or [None]
    when nothing is left. *)
Definition find_common_silence (cs : list ctm) (dur_ : Z) : res (option (list Z)) :=
  match cs with
  | [] => Undef
  | c :: r =>
    let* m := master (Z.to_nat (last_ c - cur c + 1)) c r dur_ (cur c) in
    match m with
    | Some l => Ok (Some l)
    | None =>
      if existsb (fun c => cur c <=? last_ c) cs then Ok (Some (map last_ cs)) else Ok None
    end
  end.

(** rover.c:184-189: what is left of a file after a piece. *)
Definition advance (c : ctm) (i : Z) : ctm :=
  {| ws := ws c; cur := i + (if i <=? last_ c then 1 else 0); last_ := last_ c |}.
(** The words handed to the alignment: from [s] to the cut (rover.c:542, net_adt.c:679). *)
Definition piece (c : ctm) (i : Z) : list tword :=
  firstn (Z.to_nat (i - cur c + 1)) (skipn (Z.to_nat (cur c)) (ws c)).
Fixpoint zip_with {A B C} (f : A -> B -> C) (l : list A) (m : list B) : list C :=
  match l, m with
  | a :: l', b :: m' => f a b :: zip_with f l' m'
  | _, _ => []
  end.
(** rover.c:157-190: the pieces of one conversation; a row has the words of each file. *)
Fixpoint pieces (fuel : nat) (cs : list ctm) (dur_ : Z) : res (list (list (list tword))) :=
  match fuel with
  | O => NoFuel
  | S f =>
    let* m := find_common_silence cs dur_ in
    match m with
    | None => Ok []
    | Some l =>
      let* r := pieces f (zip_with advance cs l) dur_ in
      Ok (zip_with piece cs l :: r)
    end
  end.

(** A word of an input file with its conversation and channel (wtokstr1.h: conv, turn). *)
Record cword := { conv : nat; turn : nat; cw : tword }.
(** fillmrks.c:347-367 [locate_boundary] by conversation and channel; [n] rounds from index [w]. *)
Fixpoint boundary_loop (k : cword) (rest : list cword) (w : Z) : option Z :=
  match rest with
  | [] => None
  | x :: r => if (conv k =? conv x)%nat && (turn k =? turn x)%nat then boundary_loop k r (w + 1) else Some (w - 1)
  end.
Definition locate_boundary (f : list cword) (start : Z) : Z :=
  let n := Z.of_nat (length f) - 1 in
  if start =? n then start
  else match skipn (Z.to_nat start) f with
       | [] => n
       | k :: r => match boundary_loop k (k :: r) start with Some e => e | None => n end
       end.
(** mfa.c:145-162: the files at the start of a conversation; the names of the conversations, not
    the channels, are compared with the first file. *)
Definition open_ctm (f : list cword) (s : Z) : ctm := {| ws := map cw f; cur := s; last_ := locate_boundary f s |}.
Definition same_conv (k : cword) (f : list cword) (s : Z) : bool :=
  match skipn (Z.to_nat s) f with
  | [] => true
  | x :: _ => (conv k =? conv x)%nat
  end.
(** rover.c:151-191: the conversations.  The files have been read to their ends, [ss] are the
    indices of the next words.  The test at the end is [s < n], with [n] the index of the last
    word (rover.c:188). *)
Fixpoint rover_rows (fuel inner : nat) (fs : list (list cword)) (ss : list Z) (dur_ : Z) : res (list (list (list (list tword)))) :=
  match fuel with
  | O => NoFuel
  | S fu =>
    match fs, ss with
    | f0 :: fr, s0 :: sr =>
      match skipn (Z.to_nat s0) f0 with
      | [] => Undef
      | k :: _ =>
        if negb (forallb (fun b => b) (zip_with (same_conv k) fr sr)) then Exit
        else
          let cs := zip_with open_ctm fs ss in
          let* rows := pieces inner cs dur_ in
          let ss' := map (fun c => last_ c + 1) cs in
          if forallb (fun b => b) (zip_with (fun f s => negb (s <? Z.of_nat (length f) - 1)) fs ss') then Ok [rows]
          else let* r := rover_rows fu inner fs ss' dur_ in Ok (rows :: r)
      end
    | _, _ => Undef
    end
  end.
