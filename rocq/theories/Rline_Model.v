(** Model of the reading of a rule of the text filter rfilter1,
    /repo/src/rfilter1/include/grules2.c. *)
From Coq Require Import List NArith ZArith Arith Bool.
From Verif Require Import Base Rfilter_Model.
Import ListNotations.
Local Open Scope res_scope.

(** isspace in the C locale. *)
Definition isspace (c : N) : bool := ((c =? 32) || ((9 <=? c) && (c <=? 13)))%N.
(** A byte of the array that holds the line, the NUL included. *)
Definition at_ (l : text) (i : Z) : res N :=
  if (i <? 0)%Z then Undef
  else match nth_error l (Z.to_nat i) with
       | Some c => Ok c
       | None => if (i =? Z.of_nat (length l))%Z then Ok 0%N else Undef
       end.
(** strchr, strrchr, strstr(l, "=>"): positions from the beginning of the string. *)
Fixpoint strchr (l : text) (c : N) : option nat :=
  match l with [] => None | x :: r => if (x =? c)%N then Some 0 else option_map S (strchr r c) end.
Fixpoint strrchr (l : text) (c : N) : option nat :=
  match l with
  | [] => None
  | x :: r => match strrchr r c with Some i => Some (S i) | None => if (x =? c)%N then Some 0 else None end
  end.
Fixpoint find_arrow (l : text) : option nat :=
  match l with
  | [] => None
  | x :: r => match r with
              | y :: _ => if ((x =? 61) && (y =? 62))%N then Some 0 else option_map S (find_arrow r)
              | [] => None
              end
  end.
(** pltrimf.c *)
Fixpoint pltrimf (l : text) : nat := match l with c :: r => if isspace c then S (pltrimf r) else 0 | [] => 0 end.
(** prtrim.c: the position of the last character that is not a space, -1 without one. *)
Fixpoint prtrim (l : text) : Z :=
  match l with [] => (-1)%Z | c :: r => let k := prtrim r in if (k =? -1)%Z then (if isspace c then -1 else 0)%Z else (k + 1)%Z end.
(** while ((end > start) && isspace *end) end -= 1 *)
Fixpoint back_check (fuel : nat) (l : text) (start e : Z) : res Z :=
  match fuel with
  | O => NoFuel
  | S f => if (e >? start)%Z then let* c := at_ l e in if isspace c then back_check f l start (e - 1) else Ok e else Ok e
  end.
(** for (; isspace *end && (end > start); end -= 1) *)
Fixpoint back_read (fuel : nat) (l : text) (start e : Z) : res Z :=
  match fuel with
  | O => NoFuel
  | S f => let* c := at_ l e in if isspace c && (e >? start)%Z then back_read f l start (e - 1) else Ok e
  end.
(** while ((!isspace *start) && (start < end)) start += 1 *)
Fixpoint skip_word (fuel : nat) (l : text) (s e : Z) : res Z :=
  match fuel with
  | O => NoFuel
  | S f => let* c := at_ l s in if negb (isspace c) && (s <? e)%Z then skip_word f l (s + 1) e else Ok s
  end.
(** while (isspace *start) start += 1 *)
Fixpoint skip_space (fuel : nat) (l : text) (s : Z) : res Z :=
  match fuel with
  | O => NoFuel
  | S f => let* c := at_ l s in if isspace c then skip_space f l (s + 1) else Ok s
  end.
(** ss_to_s.c with LINE_LENGTH, 132: the bytes from [s] to [e]. *)
Definition substr_to_str (l : text) (s e : Z) : text :=
  let n := Z.to_nat (e - s + 1) in
  let t := firstn n (skipn (Z.to_nat s) l) in
  if (n <? 132)%nat then t else firstn 129 t ++ [42; 42]%N.
(** grules2.c:119-128: the boundary characters and the copy. *)
Definition unbound (l : text) (s e : Z) : res text :=
  let* a := at_ l s in
  let* b := at_ l e in
  let q := (((a =? 91) && (b =? 93)) || ((a =? 34) && (b =? 34)))%N in
  let (s', e') := if q then (s + 1, e - 1)%Z else (s, e) in
  Ok (substr_to_str l s' e').
(** grules2.c:139-152, and in the same way 161-177 and 181-197: what follows the mark at [s], up to
    [e].  (For a context an empty result is not stored; the field is empty already.) *)
Definition get_item (l : text) (s e : Z) : res text :=
  let fuel := S (S (length l)) in
  let* s1 := skip_word fuel l s e in
  if (s1 <? e)%Z then
    let* s2 := skip_space fuel l s1 in
    unbound l s2 e
  else Ok [].
(** grules2.c:94-104: the mark of the context is the last slash, unless a ] follows it before a [.
    (The comparison of a null pointer with another one is taken to be that of addresses.) *)
Definition before (a b : option nat) : bool :=
  match a, b with
  | None, None => false
  | None, Some _ => true
  | Some _, None => false
  | Some i, Some j => (i <? j)%nat
  end.
Definition context_mark (l : text) : option nat :=
  match strrchr l 47 with
  | None => None
  | Some c => let r := skipn c l in if before (strchr r 93) (strchr r 91) then None else Some c
  end.
(** grules2.c:65-213 [r_process_data_line] for the format NIST1; an error code is [Exit]. *)
Definition process_data_line (l : text) : res rule :=
  let fuel := S (S (length l)) in
  if (prtrim l - Z.of_nat (pltrimf l) + 1 <? 1)%Z then Exit else
  match find_arrow l with
  | None => Exit
  | Some q =>
    let ieq := Z.of_nat q in
    let icontext := context_mark l in
    let start := Z.of_nat (pltrimf l) in
    let* lhs :=
      if (start <? ieq)%Z then
        let* e := back_check fuel l start (ieq - 1) in
        unbound l start e
      else Ok [] in
    let* e := match icontext with
              | None => Ok (prtrim l)
              | Some c => back_read fuel l ieq (Z.of_nat c - 1)
              end in
    let* rhs := get_item l ieq e in
    match icontext with
    | None => Ok {| lctx := []; sin := lhs; rctx := []; sout := rhs |}
    | Some c =>
      match strchr (skipn c l) 95 with
      | None => Ok {| lctx := []; sin := lhs; rctx := []; sout := rhs |}
      | Some k =>
        let islot := Z.of_nat (c + k) in
        let* e2 := back_read fuel l (Z.of_nat c) (islot - 1) in
        let* lc := get_item l (Z.of_nat c) e2 in
        let* rc := get_item l islot (prtrim l) in
        Ok {| lctx := lc; sin := lhs; rctx := rc; sout := rhs |}
      end
    end
  end.
