(** Model of the scoring of a time marked hypothesis (CTM) against a segmented reference (STM),
    /repo/src/sclite/stm2ctm.c, with the marking of alternations of fillmrks.c and the channel
    boundaries of fillmrks.c and stm.c.

    Times are integers in an arbitrary unit, [ups] units a second, and arithmetic on them is exact
    (the code has doubles and floats).  Texts are ASCII without NUL: the case conversion of
    TEXT_strcasecmp is tolower.  Both files are taken as a whole; the windows in which the code
    reads them (fill_STM_structure, fill_WTOKE_structure) are not modelled here.  The alignment
    of a segment with its words is an event of the result, not carried out. *)
From Coq Require Import List NArith ZArith Arith Bool.
From Verif Require Import Base.
Import ListNotations.
Local Open Scope res_scope.
Local Open Scope Z_scope.

Definition str := list N.
Definition lower (c : N) : N := if ((65 <=? c) && (c <=? 90))%N then (c + 32)%N else c.
Fixpoint str_eqb (a b : str) : bool :=
  match a, b with
  | [], [] => true
  | x :: a', y :: b' => (x =? y)%N && str_eqb a' b'
  | _, _ => false
  end.
(** text.c:862 TEXT_strcasecmp(a, b) == 0 *)
Definition casecmp (a b : str) : bool := str_eqb (map lower a) (map lower b).
(** text.c:857 TEXT_strCcasecmp(a, p, strlen(p)) == 0 *)
Definition casepre (p a : str) : bool := casecmp (firstn (length p) a) p.
(** text.c:653-673 TEXT_strstr(a, p) != 0 *)
Fixpoint strstr (a p : str) : bool :=
  casepre p a || match a with [] => false | _ :: r => strstr r p end.

(** "<ALT", "<ALT_BEGIN>", "<ALT_END>" *)
Definition ALT : str := [60; 65; 76; 84]%N.
Definition ALT_BEGIN : str := (ALT ++ [95; 66; 69; 71; 73; 78; 62])%N.
Definition ALT_END : str := (ALT ++ [95; 69; 78; 68; 62])%N.
(** "IGNORE_TIME_SEGMENT_IN_SCORING", "IGNORETIMESEGMENTINSCORING" *)
Definition IGNORE_1 : str :=
  [73; 71; 78; 79; 82; 69; 95; 84; 73; 77; 69; 95; 83; 69; 71; 77; 69; 78; 84; 95; 73; 78; 95; 83; 67; 79; 82; 73; 78; 71]%N.
Definition IGNORE_2 : str :=
  [73; 71; 78; 79; 82; 69; 84; 73; 77; 69; 83; 69; 71; 77; 69; 78; 84; 73; 78; 83; 67; 79; 82; 73; 78; 71]%N.

(** wtokstr1.h: a word of the hypothesis. *)
Record word := { conv : str; turn : str; sp : str; t1 : Z; dur : Z }.
(** The same with its flag "alternate". *)
Record mword := { the_word :> word; alternate : bool }.
(** stm.h: a segment of the reference. *)
Record seg := { file : str; chan : str; s_t1 : Z; s_t2 : Z; text : str }.

Definition is_begin (w : word) : bool := casecmp ALT_BEGIN (sp w).
Definition is_end (w : word) : bool := casecmp ALT_END (sp w).
Definition is_marker (w : word) : bool := casepre ALT (sp w).

(** fillmrks.c:216-225: the flag "alternate" of the words as they are read; [prev] is the flag for
    the next word left by the word before. *)
Fixpoint mark_alternates (prev : bool) (l : list word) : list mword :=
  match l with
  | [] => []
  | w :: r =>
      let a := prev || is_marker w in
      {| the_word := w; alternate := a |} :: mark_alternates (a && negb (is_end w)) r
  end.

(** word[i]: the words are numbered from 1; what is beyond the last one is not initialised. *)
Definition wd {A} (hyp : list A) (i : Z) : res A :=
  if i <? 1 then Undef
  else match nth_error hyp (Z.to_nat (i - 1)) with Some w => Ok w | None => Undef end.
(** The words from [a] to [b], the segments from [a] to [b] (numbered from 0). *)
Definition words_of {A} (hyp : list A) (a b : Z) : list A :=
  firstn (Z.to_nat (b + 1 - a)) (skipn (Z.to_nat (a - 1)) hyp).
Definition segs_of (stm : list seg) (a b : Z) : list seg :=
  firstn (Z.to_nat (b + 1 - a)) (skipn (Z.to_nat a) stm).

(** stm2ctm.c:308-310: twice the middle of a word. *)
Definition mid2 (w : word) : Z := 2 * t1 w + dur w.
(** stm2ctm.c:313-324: twice the largest middle of an alternation, the loop from index [ch]. *)
Fixpoint alt_mid (fuel : nat) (hyp : list mword) (h_end ch mid : Z) : res Z :=
  match fuel with
  | O => NoFuel
  | S f =>
    if ch <=? h_end then
      let* w := wd hyp ch in
      if is_end w then Ok mid
      else alt_mid f hyp h_end (ch + 1) (if negb (is_marker w) && (mid <? mid2 w) then mid2 w else mid)
    else Ok mid
  end.
(** stm2ctm.c:332-335: to the end of the alternation. *)
Fixpoint to_end (fuel : nat) (hyp : list mword) (h_end e : Z) : res Z :=
  match fuel with
  | O => NoFuel
  | S f =>
    if e <=? h_end then
      let* w := wd hyp (e + 1) in
      if is_end w then Ok e else to_end f hyp h_end (e + 1)
    else Ok e
  end.
(** stm2ctm.c:307-338: the words of a segment that is not the last one; [e] is curhend. *)
Fixpoint take_words (fuel : nat) (hyp : list mword) (h_end : Z) (limit : Z) (e : Z) : res Z :=
  match fuel with
  | O => NoFuel
  | S f =>
    if e + 1 <=? h_end then
      let* w := wd hyp (e + 1) in
      let* mid := (if alternate w then alt_mid (S (length hyp)) hyp h_end (e + 1) 0 else Ok (mid2 w)) in
      if 2 * limit <=? mid then Ok e
      else if alternate w then
        let* e' := to_end (S (S (length hyp))) hyp h_end e in
        take_words f hyp h_end limit (if e' <=? h_end then e' + 1 else e')
      else take_words f hyp h_end limit (e + 1)
    else Ok e
  end.
(** stm2ctm.c:258-341 [segment_hyp_for_utt] (NEW1 undefined): the new curhend. *)
Definition segment_hyp_for_utt (hyp : list mword) (stm : list seg) (e h_end rs r_end : Z) : res Z :=
  if (rs =? r_end) || (rs =? Z.of_nat (length stm) - 1) then Ok h_end
  else match nth_error stm (Z.to_nat rs) with
       | Some s => take_words (S (length hyp)) hyp h_end (s_t2 s) e
       | None => Undef
       end.

(** Options of the run: -m ref, -m hyp, -f, and the unit of time. *)
Record opts := { reduce_ref : bool; reduce_hyp : bool; feedback : bool; ups : Z }.

(** stm2ctm.c:40-51: flag1 of a segment, 0 if it is outside the hypothesis. *)
Definition seg_used (o : opts) (ws : list word) (s : seg) : bool :=
  if reduce_ref o then
    match ws with
    | [] => true
    | w0 :: _ => let wl := last ws w0 in
        negb ((s_t2 s <=? t1 w0) || (t1 wl + dur wl <=? s_t1 s))
    end
  else true.

(** stm2ctm.c:61-70: begin and end of the reference segments in use. *)
Definition ref_begin (o : opts) (segs : list seg) : Z :=
  fold_left (fun bt s => if s_t1 s <? bt then s_t1 s else bt) segs (9999999 * ups o).
Definition ref_end (o : opts) (segs : list seg) : Z :=
  fold_left (fun et s => if et <? s_t2 s then s_t2 s else et) segs (- 999999 * ups o).
(** stm2ctm.c:73-83: a word outside of the reference. *)
Definition outside (bt et : Z) (w : word) : bool :=
  negb (is_marker w) && ((et <? t1 w) || (t1 w + dur w <? bt)).
(** stm2ctm.c:90-97: the words of an alternation up to its end that are in use. *)
Fixpoint usable (ws : list word) (ig : list bool) : nat :=
  match ws, ig with
  | w :: r, i :: s =>
      if is_end w then 0
      else (if negb (is_marker w) && negb i then 1 else 0) + usable r s
  | _, _ => 0
  end%nat.
(** stm2ctm.c:98-104 *)
Fixpoint set_flags (v : bool) (ws : list word) (ig : list bool) : list bool :=
  match ws, ig with
  | w :: r, i :: s => if is_end w then ig else v :: set_flags v r s
  | _, _ => ig
  end.
(** stm2ctm.c:85-106: the loop over the words. *)
Fixpoint alt_flags (ws : list word) (ig : list bool) : list bool :=
  match ws with
  | [] => ig
  | w :: r =>
      let ig' := if is_begin w then set_flags (Nat.eqb (usable ws ig) 0) ws ig else ig in
      match ig' with
      | [] => []
      | i :: s => i :: alt_flags r s
      end
  end.
(** stm2ctm.c:53-113: the flags "ignore" of the words of the channel. *)
Definition word_flags (o : opts) (ws : list word) (segs : list seg) : list bool :=
  if reduce_hyp o then
    let used := filter (seg_used o ws) segs in
    alt_flags ws (map (outside (ref_begin o used) (ref_end o used)) ws)
  else map (fun _ => false) ws.

(** A segment with the words it was given: its number, the first and the last word, and whether
    it was scored. *)
Record cut := { c_seg : Z; c_from : Z; c_to : Z; c_scored : bool }.

(** stm2ctm.c:162-164 *)
Definition ignored_text (s : seg) : bool := strstr (text s) IGNORE_1 || strstr (text s) IGNORE_2.

(** stm2ctm.c:117-250: the loop over the segments of the channel, [segs] those from [rs] on; [c]
    and [e] are curhyp and curhend. *)
Fixpoint channel_loop (o : opts) (hyp : list mword) (stm : list seg) (ws : list word) (h_end r_end : Z)
    (segs : list seg) (rs c e : Z) : res (list cut) :=
  match segs with
  | [] => Ok []
  | s :: r =>
      if (reduce_ref o || reduce_hyp o) && negb (seg_used o ws s)
      then channel_loop o hyp stm ws h_end r_end r (rs + 1) c e
      else
        let* e' := segment_hyp_for_utt hyp stm e h_end rs r_end in
        let* rest := channel_loop o hyp stm ws h_end r_end r (rs + 1) (e' + 1) e' in
        Ok ({| c_seg := rs; c_from := c; c_to := e'; c_scored := negb (ignored_text s) |} :: rest)
  end.

(** The result for a channel: the cuts and the flags "ignore". *)
Record channel := { cuts : list cut; flags : list bool }.

(** stm2ctm.c:6-254 [align_one_channel] *)
Definition align_one_channel (o : opts) (hyp : list mword) (stm : list seg) (h_st h_end r_st r_end : Z) : res channel :=
  let ws := map the_word (words_of hyp h_st h_end) in
  let segs := segs_of stm r_st r_end in
  let* l := channel_loop o hyp stm ws h_end r_end segs r_st h_st (h_st - 1) in
  Ok {| cuts := l; flags := word_flags o ws segs |}.

(** fillmrks.c:269-290 [locate_WTOKE_boundary] and stm.c:152-174 [locate_STM_boundary], by file and
    by channel: the loop; [x] is the position of the head of the list. *)
Fixpoint change_at {A} (same : A -> bool) (x : Z) (l : list A) : option Z :=
  match l with
  | [] => None
  | a :: r => if same a then change_at same (x + 1) r else Some (x - 1)
  end.
Definition same_word (k w : mword) : bool := str_eqb (conv k) (conv w) && str_eqb (turn k) (turn w).
Definition same_seg (k s : seg) : bool := str_eqb (file k) (file s) && str_eqb (chan k) (chan s).
Definition locate_words (hyp : list mword) (start : Z) : Z :=
  let n := Z.of_nat (length hyp) in
  if start =? n then start
  else match skipn (Z.to_nat (start - 1)) hyp with
       | [] => n
       | k :: r => match change_at (same_word k) start (k :: r) with Some e => e | None => n end
       end.
Definition locate_segs (stm : list seg) (start : Z) : Z :=
  let n := Z.of_nat (length stm) in
  if start =? n then start
  else match skipn (Z.to_nat start) stm with
       | [] => n
       | k :: r => match change_at (same_seg k) start (k :: r) with Some e => e | None => n end
       end.

(** stm->seg[i], printed or compared: not initialised beyond the last one. *)
Definition sg (stm : list seg) (i : Z) : res seg :=
  match nth_error stm (Z.to_nat i) with Some s => Ok s | None => Undef end.

(** stm2ctm.c:401-446: the loop over the channels; [hs] and [ss] are hyp_segs->s and stm->s.
    The result [None] is the null pointer, for which the program ends with an error. *)
Fixpoint channels_loop (fuel : nat) (o : opts) (hyp : list mword) (stm : list seg) (hs ss : Z) : res (option (list channel)) :=
  match fuel with
  | O => NoFuel
  | S f =>
    let n := Z.of_nat (length hyp) in
    let num := Z.of_nat (length stm) in
    let hend := locate_words hyp hs in
    let rend := locate_segs stm ss in
    let* _ := (if feedback o then sg stm ss else Ok {| file := []; chan := []; s_t1 := 0; s_t2 := 0; text := [] |}) in
    let* hend' := (if n <? hs then let* _ := sg stm ss in Ok (Some hend)
                   else if num <? ss then Ok None
                   else let* w := wd hyp hs in
                        let* s := sg stm ss in
                        if str_eqb (conv w) (file s) && str_eqb (turn w) (chan s) then Ok (Some hend)
                        else Ok (Some (hs - 1))) in
    match hend' with
    | None => Ok None
    | Some he =>
      let* c := align_one_channel o hyp stm hs he ss rend in
      if (he + 1 <=? n) || (rend + 1 <? num) then
        let* r := channels_loop f o hyp stm (he + 1) (rend + 1) in
        Ok (option_map (cons c) r)
      else Ok (Some [c])
    end
  end.
(** stm2ctm.c:343-458 [align_ctm_to_stm_dp]: the words as read, the whole reference. *)
Definition align_ctm_to_stm (o : opts) (hyp : list word) (stm : list seg) : res (option (list channel)) :=
  channels_loop (S (S (length stm))) o (mark_alternates false hyp) stm 1 0.
