(** Words of sclite, /repo/src/sclite/word.c and word.h. *)
From Coq Require Import List Arith ZArith NArith Bool.
From Verif Require Import Base Text_Model.
Import ListNotations.
Local Open Scope res_scope.

(** word.h:5-24, the fields used by the comparisons.  A string field is the list of its bytes,
    [None] the null pointer.  Times and weights are exact integers in thousandths. *)
Record word := {
  w_value : list N;
  w_intern : option (list N);
  w_opt_del : bool;
  w_frag : bool;
  w_t1 : Z; w_t2 : Z; w_dur : Z;
  w_weight : Z
}.
Definition cstr (s : list N) : list N := s ++ [0%N].

(** strncmp of the C library, for strings given by their bytes without the terminator; the sign
    of the result *)
Fixpoint strncmp (s t : list N) (n : nat) {struct n} : Z :=
  match n with
  | O => 0%Z
  | S n' =>
      match s, t with
      | [], [] => 0%Z
      | [], _ => (-1)%Z
      | _, [] => 1%Z
      | a :: s', b :: t' =>
          if (a =? b)%N then strncmp s' t' n' else if (a <? b)%N then (-1)%Z else 1%Z
      end
  end.

(** [*(p + i)] inside a string or at its terminator; outside it is undefined *)
Definition byte_at (s : list N) (i : nat) : res N := rd (skipn i (cstr s)).
(** [*(p + l - 1)] where [l] is the length: with an empty string the byte before it *)
Definition last_byte (s : list N) : res N :=
  match length s with O => Undef | S k => byte_at s k end.

(** word.c:383-384: the text that is compared *)
Definition it (w : word) : res (list N) :=
  if negb (w_opt_del w) then Ok (w_value w)
  else match w_intern w with Some s => Ok s | None => Undef end.

(** word.c:373-407 [equal_WORD2] *)
Definition equal_word (e : enc) (p1 p2 : option word) : res Z :=
  match p1, p2 with
  | None, _ => Ok (-1)%Z
  | _, None => Ok 1%Z
  | Some w1, Some w2 =>
      let* it1 := it w1 in
      let* it2 := it w2 in
      let l1 := length it1 in
      let l2 := length it2 in
      let plain := strcmp e (cstr it1) (cstr it2) in
      if w_frag w1 || w_frag w2 then
        let* f1 := byte_at it1 0 in
        if (f1 =? 45)%N && (1 <? l1) then
          if l2 <? l1 - 1 then Ok 1%Z
          else Ok (strncmp (skipn 1 it1) (skipn (l2 - (l1 - 1)) it2) (l1 - 1))
        else
          let* e1 := last_byte it1 in
          if (e1 =? 45)%N && (1 <? l1) then Ok (strncmp it1 it2 (l1 - 1))
          else
            let* f2 := byte_at it2 0 in
            if (f2 =? 45)%N && (1 <? l2) then
              if l1 <? l2 - 1 then Ok (-1)%Z
              else Ok (strncmp (skipn (l1 - (l2 - 1)) it1) (skipn 1 it2) (l2 - 1))
            else
              let* e2 := last_byte it2 in
              if (e2 =? 45)%N && (1 <? l2) then Ok (strncmp it1 it2 (l2 - 1))
              else plain
      else plain
  end.

(** [TEXT_strcmp(w->value, "@") == 0], word.c:4 *)
Definition is_at (e : enc) (w : word) : res bool :=
  let* z := strcmp e (cstr (w_value w)) (cstr [64%N]) in Ok (z =? 0)%Z.

(** the common beginning of the distance functions, word.c:23-31: [inl] is a return *)
Definition null_at (e : enc) (p1 p2 : option word) : res (Z + unit) :=
  match p1, p2 with
  | None, None => Exit
  | Some w1, None => let* a := is_at e w1 in Ok (if a then inl 1%Z else inr tt)
  | None, Some w2 => let* a := is_at e w2 in Ok (if a then inl 1%Z else inr tt)
  | _, _ => Ok (inr tt)
  end.

(** word.c:18-50 [wwd_WORD] with the comparison [equal_WORD2]; costs in thousandths.  In the
    source the value of an insertion or deletion of "@" is compared only when the other word is
    null. *)
Definition wwd_word (e : enc) (p1 p2 : option word) : res Z :=
  let* r := null_at e p1 p2 in
  match r with
  | inl z => Ok z
  | inr _ =>
      match p1, p2 with
      | None, Some w => if w_opt_del w then Ok 2000%Z else Ok 3000%Z
      | Some w, None => if w_opt_del w then Ok 2000%Z else Ok 3000%Z
      | Some w1, Some w2 =>
          let* a1 := is_at e w1 in
          let* both := if a1 then is_at e w2 else Ok false in
          if both : bool then Ok 1000%Z
          else let* c := equal_word e p1 p2 in
               if (c =? 0)%Z then Ok 0%Z else Ok 4000%Z
      | None, None => Exit
      end
  end.

(** word.c:111-128 [wwd_time_WORD] *)
Definition wwd_time_word (e : enc) (p1 p2 : option word) : res Z :=
  let* r := null_at e p1 p2 in
  match r with
  | inl z => Ok z
  | inr _ =>
      match p1, p2 with
      | None, Some w => Ok (w_dur w)
      | Some w, None => Ok (w_dur w)
      | Some w1, Some w2 =>
          let* c := equal_word e p1 p2 in
          Ok (Z.abs (w_t1 w1 - w_t1 w2) + Z.abs (w_t2 w1 - w_t2 w2)
              + (if (c =? 0)%Z then 0 else 1))%Z
      | None, None => Exit
      end
  end.

(** word.c:130-150 [wwd_weight_WORD] *)
Definition wwd_weight_word (e : enc) (p1 p2 : option word) : res Z :=
  let* r := null_at e p1 p2 in
  match r with
  | inl z => Ok z
  | inr _ =>
      match p1, p2 with
      | None, Some w => Ok (w_weight w)
      | Some w, None => Ok (w_weight w)
      | Some w1, Some w2 =>
          let* c := equal_word e p1 p2 in
          if (c =? 0)%Z then Ok 0%Z else Ok (w_weight w1 + w_weight w2)%Z
      | None, None => Exit
      end
  end.

(** word.c:297-321 [new_WORD] for a non-null text: a final "*" is dropped from texts of more than
    one byte *)
Definition new_word (t : list N) (t1 t2 : Z) (fcorr odel : bool) (weight : Z) : word :=
  let v := match t with
           | _ :: _ :: _ => if (last t 0 =? 42)%N then removelast t else t
           | _ => t
           end in
  {| w_value := v; w_intern := None; w_opt_del := odel; w_frag := fcorr;
     w_t1 := t1; w_t2 := t2; w_dur := (t2 - t1)%Z; w_weight := weight |}.

(** word.c:422-430 [copy_WORD] *)
Definition copy_word (w : word) : word :=
  new_word (w_value w) (w_t1 w) (w_t2 w) (w_frag w) (w_opt_del w) (w_weight w).

(** align.c:751-765 [decode_opt_del].  The length passed to TEXT_strBdup is [len - 2]; with the
    single byte of a text of length 1 both tests cannot hold, so it is never negative. *)
Definition decode_opt_del (w : word) : res word :=
  let s := w_value w in
  let* e1 := last_byte s in
  let* f1 := byte_at s 0 in
  if (e1 =? 41)%N && (f1 =? 40)%N then
    Ok {| w_value := s; w_intern := Some (firstn (length s - 2) (skipn 1 s));
          w_opt_del := true; w_frag := w_frag w;
          w_t1 := w_t1 w; w_t2 := w_t2 w; w_dur := w_dur w; w_weight := w_weight w |}
  else Ok w.

(** align.c:767-780 [decode_fragment] *)
Definition decode_fragment (w : word) : res word :=
  let s := w_value w in
  let* e1 := last_byte s in
  let* f1 := byte_at s 0 in
  let set := Ok {| w_value := s; w_intern := w_intern w; w_opt_del := w_opt_del w; w_frag := true;
                   w_t1 := w_t1 w; w_t2 := w_t2 w; w_dur := w_dur w; w_weight := w_weight w |} in
  if (e1 =? 45)%N || (f1 =? 45)%N then set
  else if w_opt_del w then
    match length s with
    | O | 1 => Undef
    | S (S k) => let* p := byte_at s k in if (p =? 45)%N then set else Ok w
    end
  else Ok w.
