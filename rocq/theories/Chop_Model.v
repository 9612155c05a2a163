(** Model of the alignment of two time marked files, /repo/src/sclite/ctm2ctm.c.

    What is simplified: times are exact integers in thousandths of a second; both files are taken as a
    whole, with the flags "alternate" of fillmrks.c:216-225 (the windows in which they are read are in
    the Read model); the alignment of the networks of a piece, its times and its entry into the scores
    are those of other models, here a piece is the words given to it and its names; the number of words
    to try, which is doubled, does not overflow; messages are left out. *)
From Coq Require Import String List NArith ZArith Arith Bool.
From Verif Require Import Base Chan_Model.
From Verif Require Sil_Model Sgml_Model Store_Model.
Import ListNotations.
Local Open Scope res_scope.
Local Open Scope Z_scope.

(** fillmrks.c:347-367 [locate_boundary], by conversation and, if asked, by channel; the loop from [w] *)
Fixpoint boundary_loop (n : nat) (by_turn : bool) (f : list mword) (x : mword) (w : Z) : res Z :=
  match n with
  | O => Ok (Z.of_nat (length f))
  | S m =>
      let* y := wd f w in
      if str_eqb (conv x) (conv y) && (negb by_turn || str_eqb (turn x) (turn y)) then boundary_loop m by_turn f x (w + 1)
      else Ok (w - 1)
  end.
Definition locate_boundary (by_turn : bool) (f : list mword) (start : Z) : res Z :=
  let n := Z.of_nat (length f) in
  if start =? n then Ok start
  else if n <? start then Ok n
  else let* x := wd f start in boundary_loop (Z.to_nat (n - start + 1)) by_turn f x start.

(** ctm2ctm.c:427, 434: the end of the last gap, 999999.99 seconds *)
Definition FAR : Z := 999999990.
Definition ends (w : word) : Z := t1 w + dur w.

Section Chop.
Variables ref hyp : list mword.

(** overlap of two words is negative, ctm2ctm.c:396-399, 407-410 *)
Definition apart (r h : word) : bool := Sil_Model.overlap (t1 r) (ends r) (t1 h) (ends h) <? 0.
(** ctm2ctm.c:387-388, 400-403, 463-466: down over the words of alternations; whether there were any *)
Fixpoint skip (fuel : nat) (rs re : Z) (sk : bool) : res (Z * bool) :=
  match fuel with
  | O => NoFuel
  | S f =>
      if rs <=? re then
        let* r := wd ref re in
        if alternate r then skip f rs (re - 1) true else Ok (re, sk)
      else Ok (re, sk)
  end.
(** ctm2ctm.c:393-403, 483-496: the reference comes down while it is later than the hypothesis; stops
    once an alternation was skipped *)
Fixpoint lower_ref (fuel : nat) (rs re he : Z) (sk : bool) : res (Z * bool) :=
  match fuel with
  | O => NoFuel
  | S f =>
      if negb sk && (rs <=? re) then
        let* r := wd ref re in
        let* h := wd hyp he in
        if (t1 h <? t1 r) && apart r h then
          let* (re, sk) := skip f rs (re - 1) sk in
          lower_ref f rs re he sk
        else Ok (re, sk)
      else Ok (re, sk)
  end.
(** ctm2ctm.c:405-411, 469-477: the hypothesis comes down while it is later than the reference *)
Fixpoint lower_hyp (fuel : nat) (hs he re : Z) : res Z :=
  match fuel with
  | O => NoFuel
  | S f =>
      if hs <=? he then
        let* r := wd ref re in
        let* h := wd hyp he in
        if (t1 r <? t1 h) && apart r h then lower_hyp f hs (he - 1) re else Ok he
      else Ok he
  end.
(** the rounds any of the loops may need *)
Definition rounds (a b : Z) : nat := S (S (Z.to_nat (b - a + 1))).
(** ctm2ctm.c:389-412: the ends are brought to the same time *)
Fixpoint sync (fuel : nat) (rs hs re he : Z) : res (Z * Z) :=
  match fuel with
  | O => NoFuel
  | S f =>
      let* r := wd ref re in
      let* h := wd hyp he in
      if t1 h <? t1 r then
        let* (re, sk) := lower_ref (rounds rs re) rs re he false in
        if (sk : bool) then sync f rs hs re he else Ok (re, he)
      else if t1 r <? t1 h then
        let* he := lower_hyp (rounds hs he) hs he re in
        Ok (re, he)
      else Ok (re, he)
  end.
(** ctm2ctm.c:457-498: one of the ends is moved down *)
Fixpoint shift (fuel : nat) (rs hs re he : Z) : res (Z * Z) :=
  match fuel with
  | O => NoFuel
  | S f =>
      let* r := wd ref re in
      let* h := wd hyp he in
      if t1 h <? t1 r then
        let* (re, sk) := if rs <? re then skip (rounds rs re) rs (re - 1) false else Ok (re, false) in
        if (sk : bool) then shift f rs hs re he
        else let* he := lower_hyp (rounds hs he) hs he re in Ok (re, he)
      else
        let he := if hs <? he then he - 1 else he in
        let* (re, sk) := lower_ref (rounds rs re) rs re he false in
        if (sk : bool) then shift f rs hs re he else Ok (re, he)
  end.
(** ctm2ctm.c:424-439: the gap after a word; within the loop the ends are above the starts *)
Definition gap (l : list mword) (e last_ : Z) : res (Z * Z) :=
  let* w := wd l e in
  let* b := if e =? last_ then Ok FAR else let* v := wd l (e + 1) in Ok (t1 v) in
  Ok (ends w, b).
(** ctm2ctm.c:423-516: the search backwards; [None] is the return of 0 *)
Fixpoint back (fuel : nat) (rs hs rc hc re he : Z) : res (option (Z * Z)) :=
  match fuel with
  | O => NoFuel
  | S f =>
      if (rs <? re) && (hs <? he) then
        let* (r1, r2) := gap ref re rc in
        let* (h1, h2) := gap hyp he hc in
        if Sil_Model.overlap r1 r2 h1 h2 <? 0 then
          let* (re, he) := shift (rounds rs re) rs hs re he in
          back f rs hs rc hc re he
        else Ok (Some (re, he))
      else if (rs <? re) || (hs <? he) then Ok (Some (re, he))
      else Ok None
  end.
(** ctm2ctm.c:350-518 [chop_WTOKE_2] *)
Definition chop (rs hs rc hc max_words : Z) : res (option (Z * Z)) :=
  if (rc <? rs) && (hc <? hs) then Ok None
  else if (rc - rs <? max_words) && (hc - hs <? max_words) then Ok (Some (rc, hc))
  else
    let re := Z.min (rs + max_words) rc in
    let he := Z.min (hs + max_words) hc in
    let* (re, _) := skip (rounds rs re) rs re false in
    let* (re, he) := sync (rounds rs re) rs hs re he in
    back (rounds rs re + rounds hs he) rs hs rc hc re he.
(** ctm2ctm.c:193-200: more words are tried until it succeeds *)
Fixpoint cut (fuel : nat) (rs hs rc hc base_len : Z) : res (Z * Z) :=
  match fuel with
  | O => NoFuel
  | S f =>
      let* o := chop rs hs rc hc base_len in
      match o with Some p => Ok p | None => cut f rs hs rc hc (base_len * 2) end
  end.

(** A piece that is aligned: its names and its words *)
Record piece := { p_id : str; p_spkr : str; p_file : str; p_chan : str; p_ref : list mword; p_hyp : list mword }.
(** %04d *)
Definition four (k : nat) : str :=
  let t := Sgml_Model.nat_text (N.of_nat k) in repeat 48%N (4 - length t) ++ t.
(** ctm2ctm.c:204-211 *)
Definition utt_id (c t : str) (k : nat) : str := Store_Model.bytes "(" ++ c ++ Store_Model.bytes "-" ++ t ++ Store_Model.bytes "-" ++ four k ++ Store_Model.bytes ")".
Definition spkr_name (c t : str) : str := c ++ Store_Model.bytes "-" ++ t.
(** ctm2ctm.c:190-277: the pieces of a channel; the id is written into an array of 100 bytes *)
Fixpoint pieces (fuel : nat) (rb hb re he : Z) (chunk : nat) : res (list piece) :=
  match fuel with
  | O => NoFuel
  | S f =>
      if (rb <=? re) || (hb <=? he) then
        let* (rx, hx) := cut (rounds rb re + rounds hb he) rb hb re he 50 in
        let* w := wd ref rb in
        if (length (utt_id (conv w) (turn w) chunk) <? 100)%nat then
          let* r := pieces f (rx + 1) (hx + 1) re he (S chunk) in
          Ok ({| p_id := utt_id (conv w) (turn w) chunk; p_spkr := spkr_name (conv w) (turn w); p_file := conv w; p_chan := turn w;
                 p_ref := words_of ref rb rx; p_hyp := words_of hyp hb hx |} :: r)
        else Undef
      else Ok []
  end.
Definition channel (rb hb re he : Z) : res (list piece) := pieces (rounds rb re + rounds hb he) rb hb re he 0.

(** ctm2ctm.c:99-109: the end of the second channel of a conversation, -1 if there is none *)
Definition second (f : list mword) (x : mword) (end1 : Z) : res Z :=
  if end1 + 1 <? Z.of_nat (length f) then
    let* y := wd f (end1 + 1) in
    if str_eqb (conv x) (conv y) then locate_boundary true f (end1 + 1) else Ok (-1)
  else Ok (-1).
(** ctm2ctm.c:61-284: the loop over the conversations; [rs] and [hs] are ref->s and hyp->s *)
Fixpoint convs (fuel : nat) (rs hs : Z) : res (list piece) :=
  match fuel with
  | O => NoFuel
  | S f =>
      let rn := Z.of_nat (length ref) in
      let hn := Z.of_nat (length hyp) in
      if (hn <? hs) && (rs <? rn) then Exit
      else if (hs <? hn) && (rn <? rs) then Exit
      else
        let* rconv := locate_boundary false ref rs in
        let* hconv := locate_boundary false hyp hs in
        let* r := wd ref rs in
        let* h := wd hyp hs in
        if str_eqb (conv r) (conv h) then
          let* r1 := locate_boundary true ref rs in
          let* h1 := locate_boundary true hyp hs in
          let* r2 := second ref r r1 in
          let* h2 := second hyp h h1 in
          if negb (r2 =? -1) && (h2 =? -1) then Exit
          else if negb (h2 =? -1) && (r2 =? -1) then Exit
          else
            let* a := channel rs hs r1 h1 in
            let* b := if r2 =? -1 then Ok [] else channel (r1 + 1) (h1 + 1) r2 h2 in
            let* c := if (hconv + 1 <=? hn) || (rconv + 1 <=? rn) then convs f (rconv + 1) (hconv + 1) else Ok [] in
            Ok (a ++ b ++ c)
        else Exit
  end.
(** ctm2ctm.c:6-293 [align_ctm_to_ctm] *)
Definition align_ctm_to_ctm : res (list piece) := convs (S (length ref + length hyp)) 1 1.
End Chop.
