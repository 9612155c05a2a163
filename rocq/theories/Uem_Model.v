(** Model of asclite's evaluation map (UEM) filter and of the inter segment gaps it adds. *)
From Coq Require Import List ZArith NArith Arith Bool.
From Verif Require Import Base Store_Model Segm_Model.
Import ListNotations.
Local Open Scope Z_scope.
Local Open Scope res_scope.

(** uemfilter.h: an element of the map. [LoadFile] (uemfilter.cpp:51-118) adds elements with
    start before end only; reading the file is not modelled. *)
Record uem := { u_file : str; u_ch : str; u_from : Z; u_to : Z }.

(** file.find(prefix, 0) == 0 *)
Fixpoint starts_with (prefix file : str) : bool :=
  match prefix, file with
  | [], _ => true
  | _ :: _, [] => false
  | x :: p, y :: f => N.eqb x y && starts_with p f
  end.

(** uemfilter.cpp:41-49 [FindElement]. *)
Definition find_elements (m : list uem) (file ch : str) : list uem :=
  filter (fun u => starts_with (u_file u) file && str_eqb ch (u_ch u)) m.

(** uemfilter.cpp:149-193: the loop over the elements for a reference segment; the flag and the
    number of reported errors. *)
Definition bad_border (s : rseg) (u : uem) : bool :=
  ((r_start s <? u_from u) && (u_from u <? r_end s) && (r_end s <? u_to u)) ||
  ((r_start s <? u_from u) && (u_from u <? u_to u) && (u_to u <? r_end s)) ||
  ((u_from u <? r_start s) && (r_start s <? u_to u) && (u_to u <? r_end s)).
Fixpoint ref_loop (s : rseg) (els : list uem) (errs : nat) : bool * nat :=
  match els with
  | [] => (false, errs)
  | u :: r =>
    if (u_from u <=? r_start s) && (r_end s <=? u_to u) then (true, errs)
    else ref_loop s r (if bad_border s u then S errs else errs)
  end.

(** uemfilter.cpp:234-250: the loop for a hypothesis segment. *)
Fixpoint hyp_loop (mid : Z) (els : list uem) : bool :=
  match els with
  | [] => false
  | u :: r => if (u_from u <=? mid) && (mid <=? u_to u) then true else hyp_loop mid r
  end.

(** Steps 1 of uemfilter.cpp:127-263: the segments to remove and the number of errors. An
    empty list of elements removes the segment, as the loops do. *)
Inductive origin := IsRef | IsGen | IsHyp | IsOther.
Fixpoint refs_to_remove (m : list uem) (sp : speech) (errs : nat) : list rseg * nat :=
  match sp with
  | [] => ([], errs)
  | s :: r =>
    let (keep, e) := ref_loop s (find_elements m (r_src s) (r_ch s)) errs in
    let (l, e') := refs_to_remove m r e in
    (if keep then l else s :: l, e')
  end.
Definition hyps_to_remove (m : list uem) (sp : speech) : list rseg :=
  filter (fun s => negb (hyp_loop (Z.quot (r_start s + r_end s) 2) (find_elements m (r_src s) (r_ch s)))) sp.

(** speech.cpp:199-215, the end of [RemoveSegment] (the links of the tokens are modelled in
    Links_Model): the segment is erased; without it the program stops. *)
Fixpoint remove_seg (id : nat) (sp : speech) : res speech :=
  match sp with
  | [] => Exit
  | s :: r => if Nat.eqb (r_id s) id then Ok r else let* r' := remove_seg id r in Ok (s :: r')
  end.
Fixpoint remove_all (l : list rseg) (sp : speech) : res speech :=
  match l with
  | [] => Ok sp
  | s :: r => let* sp' := remove_seg (r_id s) sp in remove_all r sp'
  end.

(** uemfilter.cpp:121-282 [ProcessSingleSpeech]. *)
Definition process_speech (m : list uem) (o : origin) (sp : speech) : res (nat * speech) :=
  match o with
  | IsRef | IsGen =>
    let (l, e) := refs_to_remove m sp 0 in let* sp' := remove_all l sp in Ok (e, sp')
  | IsHyp => let* sp' := remove_all (hyps_to_remove m sp) sp in Ok (0%nat, sp')
  | IsOther => Exit
  end.

(** * Inter segment gaps *)

(** map<string, map<string, V>>, listed in the order of the keys. *)
Fixpoint splace {V} (m : smap V) (k : str) (v : V) : smap V :=
  match m with
  | [] => [(k, v)]
  | (k', v') :: r => if str_leb k k' then (k, v) :: m else (k', v') :: splace r k v
  end.
Definition sput {V} (m : smap V) (k : str) (v : V) : smap V :=
  match massoc m k with Some _ => mput m k v | None => splace m k v end.
Definition pmap (V : Type) := smap (smap V).
Definition pfind {V} (m : pmap V) (f c : str) : option V :=
  match massoc m f with Some n => massoc n c | None => None end.
Definition pput {V} (m : pmap V) (f c : str) (v : V) : pmap V :=
  sput m f (sput (match massoc m f with Some n => n | None => [] end) c v).
Definition pget {V} (d : V) (m : pmap V) (f c : str) : V :=
  match pfind m f c with Some v => v | None => d end.
Definition ppush (m : pmap (list Z)) (f c : str) (l : list Z) : pmap (list Z) :=
  pput m f c (pget [] m f c ++ l).

(** uemfilter.cpp:318-343: smallest start, largest end (-1 means none yet), place. *)
Definition scan_seg (acc : Z * Z * str * str) (s : rseg) : Z * Z * str * str :=
  match acc with
  | (mn, mx, _, _) =>
    ((if (mn =? -1) || (r_start s <? mn) then r_start s else mn),
     (if (mx =? -1) || (mx <? r_end s) then r_end s else mx), r_src s, r_ch s)
  end.
Definition scan_group (g : group) : Z * Z * str * str :=
  fold_left scan_seg (concat (gp_refs g)) (-1, -1, [], []).

(** The maps of uemfilter.cpp:302-307. *)
Record isg := { i_times : pmap (list Z); i_borders : pmap (list Z); i_min : pmap Z; i_max : pmap Z }.
Definition no_isg : isg := {| i_times := []; i_borders := []; i_min := []; i_max := [] |}.

(** uemfilter.cpp:312-385: one group. The maps of hypothesis times are copies of the maps of
    reference times at the end of this loop. *)
Definition add_group (a : isg) (g : group) : isg :=
  match scan_group g with
  | (mn, mx, f, c) =>
    {| i_times := ppush (i_times a) f c [mn; mx];
       i_borders := ppush (i_borders a) f c [mn];
       i_min := match pfind (i_min a) f c with
                | None => pput (i_min a) f c mn
                | Some v => if mn <? v then pput (i_min a) f c mn else i_min a
                end;
       i_max := match pfind (i_max a) f c with
                | None => pput (i_max a) f c mx
                | Some v => if v <? mx then pput (i_max a) f c mx else i_max a
                end |}
  end.

(** uemfilter.cpp:390-403: the times of the map for places that have references. *)
Definition add_uem (t : pmap (list Z)) (u : uem) : pmap (list Z) :=
  match pfind t (u_file u) (u_ch u) with
  | Some _ => ppush t (u_file u) (u_ch u) [u_from u; u_to u]
  | None => t
  end.

(** A hypothesis segment with the times of its tokens (uemfilter.cpp:408-470). *)
Definition hseg := (rseg * list (Z * Z))%type.
Definition widen (mm : pmap Z * pmap Z) (f c : str) (tok : Z * Z) : pmap Z * pmap Z :=
  (match pfind (fst mm) f c with
   | Some v => if fst tok <? v then pput (fst mm) f c (fst tok) else fst mm
   | None => fst mm
   end,
   match pfind (snd mm) f c with
   | Some v => if v <? snd tok then pput (snd mm) f c (snd tok) else snd mm
   | None => snd mm
   end).
Fixpoint add_hyp_times (mm : pmap Z * pmap Z) (hs : list hseg) : res (pmap Z * pmap Z) :=
  match hs with
  | [] => Ok mm
  | (s, toks) :: r =>
    match pfind (fst mm) (r_src s) (r_ch s), pfind (snd mm) (r_src s) (r_ch s) with
    | Some _, Some _ =>
      add_hyp_times (fold_left (fun mm tok => widen mm (r_src s) (r_ch s) tok) toks mm) r
    | _, _ => Exit
    end
  end.
(** uemfilter.cpp:472-495: for every segment the smallest time in front, the largest behind. *)
Definition add_hyp_borders (mm : pmap Z * pmap Z) (t : pmap (list Z)) (h : hseg) : pmap (list Z) :=
  let f := r_src (fst h) in let c := r_ch (fst h) in
  pput t f c (pget 0 (fst mm) f c :: pget [] t f c ++ [pget 0 (snd mm) f c]).

(** std::list<int>::sort *)
Fixpoint zinsert (x : Z) (l : list Z) : list Z :=
  match l with [] => [x] | y :: r => if x <=? y then x :: l else y :: zinsert x r end.
Definition zsort (l : list Z) : list Z := fold_right zinsert [] l.

(** A gap: the place and the times given to the segment created at 533-551. *)
Record gap := { k_src : str; k_ch : str; k_from : Z; k_to : Z }.

(** uemfilter.cpp:516-562: the walk over the sorted times, two at a time. *)
Fixpoint walk (f c : str) (borders : list Z) (l : list Z) : res (list gap) :=
  match l with
  | [] => Ok []
  | [_] => Exit
  | b :: e :: r =>
    let* gs := walk f c borders r in
    if existsb (Z.eqb b) borders then Ok gs
    else if b =? e then Ok gs
    else Ok ({| k_src := f; k_ch := c; k_from := b; k_to := e |} :: gs)
  end.

(** uemfilter.cpp:498-577: all places in the order of the maps. *)
Fixpoint walk_channels (f : str) (borders : pmap (list Z)) (m : smap (list Z)) : res (list gap) :=
  match m with
  | [] => Ok []
  | (c, l) :: r =>
    let* gs := walk f c (pget [] borders f c) (zsort l) in
    let* gs' := walk_channels f borders r in Ok (gs ++ gs')
  end.
Fixpoint walk_files (borders : pmap (list Z)) (m : pmap (list Z)) : res (list gap) :=
  match m with
  | [] => Ok []
  | (f, n) :: r =>
    let* gs := walk_channels f borders n in
    let* gs' := walk_files borders r in Ok (gs ++ gs')
  end.

(** uemfilter.cpp:284-585 [ProcessSpeechSet] for references without inter segment gaps: the
    segments of the new speech. [use_file] tells whether a map was loaded; [hyps] are the
    segments of all systems, in order. *)
Definition make_gaps (m : list uem) (use_file : bool) (refs : list speech) (hyps : list hseg) : res (list gap) :=
  let* (gs, _) := segment_all new_segmenter 0 refs [] in
  let a := fold_left add_group gs no_isg in
  if use_file then walk_files (i_borders a) (fold_left add_uem m (i_times a))
  else
    let* mm := add_hyp_times (i_min a, i_max a) hyps in
    walk_files (i_borders a) (fold_left (add_hyp_borders mm) hyps (i_times a)).
