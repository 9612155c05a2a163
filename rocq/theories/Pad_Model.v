(** Model of the padding functions of sclite (pad.c) and of the columns of asclite's reports. *)
From Coq Require Import List ZArith NArith Arith Bool String.
From Verif Require Import Base Store_Model.
Import ListNotations.
Local Open Scope res_scope.
Local Open Scope Z_scope.

(** A character array; a store outside of it is undefined. *)
Definition buffer := list N.
Fixpoint set_nth (b : buffer) (i : nat) (c : N) : option buffer :=
  match b, i with
  | [], _ => None
  | _ :: r, O => Some (c :: r)
  | x :: r, S j => match set_nth r j c with Some r' => Some (x :: r') | None => None end
  end.
Definition store (b : buffer) (i : Z) (c : N) : res buffer :=
  if i <? 0 then Undef else match set_nth b (Z.to_nat i) c with Some b' => Ok b' | None => Undef end.
(** The string that starts an array: up to the first NUL; without one the reader leaves the array. *)
Fixpoint cstring (b : buffer) : option str :=
  match b with
  | [] => None
  | c :: r => if (c =? 0)%N then Some [] else match cstring r with Some s => Some (c :: s) | None => None end
  end.

(** for (i = 0; i < n; i++) buf[from + i] = c *)
Fixpoint fill (b : buffer) (from : Z) (n : nat) (c : N) : res buffer :=
  match n with
  | O => Ok b
  | S m => let* b1 := store b from c in fill b1 (from + 1) m c
  end.
(** for (i = 0; i < il; i++) buf[from + i] = str[i] *)
Fixpoint copy (b : buffer) (from : Z) (s : str) : res buffer :=
  match s with
  | [] => Ok b
  | c :: r => let* b1 := store b from c in copy b1 (from + 1) r
  end.

(** pad.c:44-55 [set_pad]. The subtraction is unsigned (strlen is a size_t); its half is
    converted to int: for a string longer than the line it is negative. *)
Definition set_pad (width : Z) (pad : buffer) (s : str) (max : Z) : res buffer :=
  let l := Z.of_nat (List.length s) in
  let len := if l <=? width then (width - l) / 2 else - ((l - width + 1) / 2) in
  let i := Z.max 0 (Z.min len (max - 1)) in
  let* b := fill pad 0 (Z.to_nat i) 32 in
  if 0 <? i then store b (i - 1) 0 else store b 0 0.

(** pad.c:59-66 [set_pad_n] *)
Definition set_pad_n (pad : buffer) (n max : Z) : res buffer :=
  let i := Z.max 0 (Z.min n (max - 1)) in
  let* b := fill pad 0 (Z.to_nat i) 32 in
  store b i 0.

(** pad.c:70-80 [set_pad_cent_n]; the division of int truncates. *)
Definition set_pad_cent_n (width : Z) (pad : buffer) (len max : Z) : res buffer :=
  let i := Z.max 0 (Z.min (Z.quot (width - len) 2) (max - 1)) in
  let* b := fill pad 0 (Z.to_nat i) 32 in
  if 0 <? i then store b (i - 1) 0 else store b 0 0.

(** pad.c:86-109 [center]; [desc] is the static array of 2000 characters. *)
Definition center (desc : buffer) (s : str) (len : Z) : res buffer :=
  if 2000 <=? len then Exit
  else
    let il := Z.of_nat (List.length s) in
    let ft := Z.quot (len - il) 2 in
    let bk := len - (il + ft) in
    let* b1 := fill desc 0 (Z.to_nat ft) 32 in
    let* b2 := copy b1 (Z.max 0 ft) s in
    let* b3 := fill b2 (Z.max 0 ft + il) (Z.to_nat bk) 32 in
    store b3 (Z.max 0 ft + il + Z.max 0 bk) 0.

(** pad.c:114-124 [strncpy_pad]; [from] without its final NUL. *)
Fixpoint pad_loop (b : buffer) (at_ : Z) (from : str) (n : nat) (chr : N) : res buffer :=
  match n with
  | O => store b at_ 0
  | S m =>
    match from with
    | c :: r => let* b1 := store b at_ c in pad_loop b1 (at_ + 1) r m chr
    | [] => let* b1 := store b at_ chr in pad_loop b1 (at_ + 1) [] m chr
    end
  end.
Definition strncpy_pad (to : buffer) (from : str) (len max : Z) (chr : N) : res buffer :=
  pad_loop to 0 from (Z.to_nat (Z.min len (max - 1))) chr.

(** rawsys_reportgenerator.cpp:134-138 [AddChar] with a space, 140-171 [AddStringText]:
    the characters written; substr with a position beyond the end throws (not caught). *)
Definition spaces (n : Z) : str := repeat 32%N (Z.to_nat n).
Definition add_string_text (value justify : str) (total : Z) (add : str) : res str :=
  let t := if str_eqb add [] then value else value ++ add in
  let l := Z.of_nat (List.length t) in
  if total <? l then
    if l <? l - total + 3 then Exit
    else Ok (bytes "..." ++ skipn (Z.to_nat (l - total + 3)) t)
  else if str_eqb justify (bytes "left") then Ok (t ++ spaces (total - l))
  else if str_eqb justify (bytes "middle") then
    let used := (total - l) / 2 in Ok (spaces used ++ t ++ spaces (total - used - l))
  else if str_eqb justify (bytes "right") then Ok (spaces (total - l) ++ t)
  else Ok [].
