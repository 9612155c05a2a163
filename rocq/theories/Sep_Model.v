(** Model of [TEXT_separate_chars]: src/sclite/text.c. *)
From Coq Require Import List NArith Arith Bool.
From Verif Require Import Base Text_Model Case_Model.
Import ListNotations.
Local Open Scope res_scope.

(** text.c:902-912 [TEXT_strCcpy]: the bytes of the first [c] characters; the copy stores them and a
    null byte. *)
Fixpoint ccpy (e : enc) (m : list N) (c : nat) : res (list N) :=
  match c with
  | O => Ok []
  | S c' =>
      let* k := nbytes e m in
      let* b := take k m in
      let* m' := adv k m in
      let* r := ccpy e m' c' in
      Ok (b ++ r)
  end.
Definition strccpy (e : enc) (out : list N) (tp : nat) (m : list N) (c : nat) : res (list N) :=
  let* b := ccpy e m c in Case_Model.store out tp (b ++ [0%N]).

(** text.c:564-568 and memory.h:159-167: the buffer is doubled when it might not be enough; the place
    to write is then the end of the string.  [junk] is what a new block holds. *)
Definition grow (junk : N) (out : list N) (tp cs : nat) : res (list N * nat) :=
  if Nat.ltb (length out) (tp + cs + 4) then
    let out := out ++ repeat junk (length out * 2 - length out) in
    let* l := strlen out in Ok (out, l)
  else Ok (out, tp).

Definition is_guarani (p : profile) : bool := match p with Guarani => true | _ => false end.
(** text.c:570-578: [&&] and [||] look no further than they have to. *)
Definition guarani_g (p : profile) (m : list N) : res bool :=
  if is_guarani p then
    let* b := rd m in
    if ((b =? 71) || (b =? 103))%N then
      let* b1 := at_off m 1 in
      if (negb (b1 =? 0) && (b1 =? 0xCC))%N then
        let* b2 := at_off m 2 in Ok (negb (b2 =? 0) && (b2 =? 0x83))%N
      else Ok false
    else Ok false
  else Ok false.
(** text.c:356 [is_ASCII] *)
Definition is_ascii (e : enc) (m : list N) : res bool :=
  match e with
  | ASCII | EXTASCII => Ok true
  | _ => let* b := rd m in Ok (N.land b 0x80 =? 0)%N
  end.

Section Separate.
Variable e : enc.
Variable p : profile.
(** flag & CALI_NOASCII, flag & CALI_DELHYPHEN *)
Variables no_ascii del_hyphen : bool.
Variable junk : N.

(** text.c:561-630, the loop: [tp] is the place to write. *)
Fixpoint sep_loop (fuel : nat) (from out : list N) (tp : nat) (last_ascii last_space : bool) : res (list N) :=
  match fuel with
  | O => NoFuel
  | S f =>
      let* cs := nbytes e from in
      let* (out, tp) := grow junk out tp cs in
      let* g := guarani_g p from in
      let* a := is_ascii e from in
      let* b := rd from in
      let hyphen := Nat.eqb cs 1 && (b =? 45)%N in
      let space := Nat.eqb cs 1 && (b =? 32)%N in
      let* st :=
        (if g then
           let* (out, tp) := (if last_space then Ok (out, tp) else let* out := strccpy e out tp [32%N; 0%N] 1 in Ok (out, S tp)) in
           let* out := strccpy e out tp from 2 in
           Ok (out, tp + 3, false, false, 3)
         else if Nat.eqb tp 0 then
           if del_hyphen && hyphen then Ok (out, tp, last_ascii, last_space, cs)
           else let* out := strccpy e out tp from 1 in Ok (out, tp + cs, a, space, cs)
         else
           if del_hyphen && hyphen then Ok (out, tp, last_ascii, last_space, cs)
           else
             let* (out, tp) :=
               (if last_space then Ok (out, tp)
                else if space then Ok (out, tp)
                else if no_ascii && a && last_ascii then Ok (out, tp)
                else let* out := strccpy e out tp [32%N; 0%N] 1 in Ok (out, S tp)) in
             let* out := strccpy e out tp from 1 in
             Ok (out, tp + cs, a, space, cs)) in
      let '(out, tp, a, s, cs) := st in
      let* from := adv cs from in
      let* b := rd from in
      if (b =? 0)%N then Ok out else sep_loop f from out tp a s
  end.
(** text.c:547-632 [TEXT_separate_chars]: the block [to], whose size is its length. *)
Definition separate (from out : list N) : res (list N) :=
  let* out := Case_Model.store out 0 [0%N] in
  let* b := rd from in
  if (b =? 0)%N then Ok out else sep_loop (length from) from out 0 false true.
End Separate.
