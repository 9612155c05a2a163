(** Model of asclite tokens: cleaned-up text, word equivalence, edit distance, times. *)
From Coq Require Import List ZArith Arith Bool Ascii.
From Verif Require Import Base Matrix_Model.
Import ListNotations.
Open Scope res_scope.

Definition text := list ascii.

(** token.cpp:29-31. *)
Definition FRAGMENT_MARKER : ascii := "-"%char.
Definition BEGIN_OPTIONAL_MARKER : ascii := "("%char.
Definition END_OPTIONAL_MARKER : ascii := ")"%char.

(** token.h: NOT_FRAGMENT, BEGIN_FRAGMENT, END_FRAGMENT. *)
Inductive fragment := NOT_FRAGMENT | BEGIN_FRAGMENT | END_FRAGMENT.

(** The options a token reads from its segment: UseOptionallyDeletable,
    AreFragmentsCorrect, PerformCaseSensitiveAlignment. *)
Record options := { op_optdel : bool; op_fragok : bool; op_case : bool }.

(** The mutable fields used here (token.h): the source text, and the two flags, which keep
    their value between calls. *)
Record token := { tk_src : text; tk_opt : bool; tk_frag : fragment }.

(** token.cpp:81-89, the constructor followed by SetSourceText's assignment (235-238). *)
Definition new_token (s : text) : token := {| tk_src := s; tk_opt := false; tk_frag := NOT_FRAGMENT |}.

(** [sourceText[i]]: the terminating NUL at [size()], undefined elsewhere outside. *)
Definition char_at (s : text) (i : Z) : res ascii :=
  if (i <? 0)%Z then Undef
  else match nth_error s (Z.to_nat i) with
       | Some c => Ok c
       | None => if Nat.eqb (Z.to_nat i) (length s) then Ok zero else Undef
       end.

(** token.cpp:97-139 [UpdateCleanedUpTextIfNeeded]: the new flags, [start] and [size].
    Simplification: [short] is [Z] (texts shorter than 32768). *)
Definition clean (o : options) (t : token) : res (bool * fragment * Z * Z) :=
  let s := tk_src t in
  let* (optional, start, size) :=
    (if op_optdel o then
       let* a := char_at s 0 in
       let* b := (if Ascii.eqb a BEGIN_OPTIONAL_MARKER
                  then let* z := char_at s (Z.of_nat (length s) - 1) in
                       Ok (Ascii.eqb z END_OPTIONAL_MARKER)
                  else Ok false) in
       Ok (if b : bool then (true, 1%Z, (Z.of_nat (length s) - 2)%Z)
           else (false, 0%Z, Z.of_nat (length s)))
     else Ok (false, 0%Z, Z.of_nat (length s))) in
  if op_fragok o then
    let* a := char_at s start in
    let '(frag1, start1, size1) :=
      if Ascii.eqb a FRAGMENT_MARKER then (END_FRAGMENT, (start + 1)%Z, (size - 1)%Z)
      else (tk_frag t, start, size) in
    let* z := char_at s (start1 + size1 - 1) in
    Ok (if Ascii.eqb z FRAGMENT_MARKER
        then (optional, BEGIN_FRAGMENT, start1, (size1 - 1)%Z)
        else (optional, frag1, start1, size1))
  else Ok (optional, NOT_FRAGMENT, start, size).

(** [std::string::substr(start, size)]: a negative size converts to a huge one; a start past
    the end throws, uncaught (Exit). *)
Definition substr (s : text) (start size : Z) : res text :=
  if (Z.of_nat (length s) <? start)%Z then Exit
  else let rest := skipn (Z.to_nat start) s in
       Ok (if (size <? 0)%Z then rest else firstn (Z.to_nat size) rest).

(** token.cpp:229-233 [GetText]: the cleaned text and the token with its flags updated. *)
Definition get_text (o : options) (t : token) : res (text * token) :=
  let* (optional, frag, start, size) := clean o t in
  let* r := substr (tk_src t) start size in
  Ok (r, {| tk_src := tk_src t; tk_opt := optional; tk_frag := frag |}).

(** token.cpp:235-239 [SetSourceText]: the flags survive from the previous text. *)
Definition set_source_text (o : options) (t : token) (s : text) : res token :=
  let t1 := {| tk_src := s; tk_opt := tk_opt t; tk_frag := tk_frag t |} in
  let* (optional, frag, _, _) := clean o t1 in
  Ok {| tk_src := s; tk_opt := optional; tk_frag := frag |}.

(** token.h: [BecomeOptionallyDeletable]. *)
Definition become_optional (o : options) (t : token) : res token :=
  set_source_text o t ([BEGIN_OPTIONAL_MARKER] ++ tk_src t ++ [END_OPTIONAL_MARKER]).

(** [tolower] in the C locale (token.cpp:241-246). *)
Definition lower_char (c : ascii) : ascii :=
  let n := nat_of_ascii c in
  if (65 <=? n) && (n <=? 90) then ascii_of_nat (n + 32) else c.
Definition lower (s : text) : text := map lower_char s.

(** The text compared, according to the options [o] of the asking token's segment
    (token.cpp:257-266, 340-349). *)
Definition compared_text (o : options) (s : text) : text :=
  if op_case o then s else lower s.

Fixpoint is_prefix (n h : text) : bool :=
  match n, h with
  | [], _ => true
  | a :: n', b :: h' => Ascii.eqb a b && is_prefix n' h'
  | _ :: _, [] => false
  end.

(** [std::string::find(needle, pos)]. *)
Fixpoint find_at (h n : text) (i : nat) : option nat :=
  if is_prefix n h then Some i
  else match h with
       | [] => None
       | _ :: h' => find_at h' n (S i)
       end.
Definition find (h n : text) (pos : nat) : option nat :=
  if length h <? pos then None else find_at (skipn pos h) n pos.

(** [h.find(n, h.size()-n.size()) != npos]; when [n] is longer the unsigned difference wraps
    to a position past the end, where nothing is found. *)
Definition find_tail (h n : text) : bool :=
  if length h <? length n then false
  else match find h n (length h - length n) with Some _ => true | None => false end.

Definition found_anywhere (h n : text) : bool :=
  match find h n 0 with Some _ => true | None => false end.
Definition found_first (h n : text) : bool :=
  match find h n 0 with Some 0 => true | _ => false end.

(** token.cpp:252-325 [IsEquivalentTo]: token [t1] (with its segment's options [o1]) asked
    about [t2]. *)
Definition is_equivalent (o1 : options) (t1 : token) (o2 : options) (t2 : token) : res bool :=
  let* (x1, t1') := get_text o1 t1 in
  let* (x2, t2') := get_text o2 t2 in
  let a := compared_text o1 x1 in
  let b := compared_text o1 x2 in
  Ok (if op_fragok o1 then
        match tk_frag t1', tk_frag t2' with
        | NOT_FRAGMENT, NOT_FRAGMENT => if list_eq_dec ascii_dec a b then true else false
        | NOT_FRAGMENT, BEGIN_FRAGMENT => found_first a b
        | NOT_FRAGMENT, END_FRAGMENT => find_tail a b
        | BEGIN_FRAGMENT, NOT_FRAGMENT => found_first b a
        | BEGIN_FRAGMENT, BEGIN_FRAGMENT => found_anywhere a b || found_anywhere b a
        | BEGIN_FRAGMENT, END_FRAGMENT => false
        | END_FRAGMENT, NOT_FRAGMENT => find_tail b a
        | END_FRAGMENT, BEGIN_FRAGMENT => false
        | END_FRAGMENT, END_FRAGMENT => find_tail a b || find_tail b a
        end
      else if list_eq_dec ascii_dec a b then true else false).

(** ** Edit distance *)

(** token.cpp:371-374, the assignment of cell [(i,j)] of the table stored by rows of [n]. *)
Definition ed_step (s t : text) (n j : nat) (d : list nat) (i : nat) : res (list nat) :=
  match nth_error s (i - 1), nth_error t (j - 1),
        nth_error d ((j - 1) * n + i), nth_error d (j * n + i - 1), nth_error d ((j - 1) * n + i - 1) with
  | Some a, Some b, Some up, Some lft, Some diag =>
      let cost := if Ascii.eqb a b then 0 else 1 in
      if j * n + i <? length d
      then Ok (update d (j * n + i) (Nat.min (Nat.min (up + 1) (lft + 1)) (diag + cost)))
      else Undef
  | _, _, _, _, _ => Undef
  end.

Fixpoint ed_inner (s t : text) (n i : nat) (js : list nat) (d : list nat) : res (list nat) :=
  match js with
  | [] => Ok d
  | j :: rest => let* d' := ed_step s t n j d i in ed_inner s t n i rest d'
  end.
Fixpoint ed_outer (s t : text) (n m : nat) (is : list nat) (d : list nat) : res (list nat) :=
  match is with
  | [] => Ok d
  | i :: rest => let* d' := ed_inner s t n i (seq 1 (m - 1)) d in ed_outer s t n m rest d'
  end.

(** token.cpp:335-389 [EditDistance] on the two compared texts; [n] and [m] are the values
    after the increments of lines 357-358.  The table starts uninitialised (0 here); rows
    and columns 0 are set by the loops of lines 360-364. *)
Fixpoint set_all (d : list nat) (l : list (nat * nat)) : list nat :=
  match l with [] => d | (i, v) :: rest => set_all (update d i v) rest end.
Definition edit_distance (s t : text) : res nat :=
  match s, t with
  | [], _ => Ok 0
  | _, [] => Ok 0
  | _, _ =>
      let n := S (length s) in
      let m := S (length t) in
      let d0 := repeat 0 (m * n) in
      let d1 := set_all d0 (map (fun k => (k, k)) (seq 0 n)) in
      let d2 := set_all d1 (map (fun k => (k * n, k)) (seq 0 m)) in
      let* d3 := ed_outer s t n m (seq 1 (n - 1)) d2 in
      match nth_error d3 (n * m - 1) with Some v => Ok v | None => Undef end
  end.

(** token.cpp:335-349: the token-level entry point. *)
Definition token_edit_distance (o1 : options) (t1 : token) (o2 : options) (t2 : token) : res nat :=
  let* (x1, _) := get_text o1 t1 in
  let* (x2, _) := get_text o2 t2 in
  edit_distance (compared_text o1 x1) (compared_text o1 x2).

(** ** Times (timedobject.cpp) *)
Record timed := { to_start : Z; to_end : Z }.

(** timedobject.cpp:25-44 [OverlapWith] (other not NULL). *)
Definition overlap_with (a b : timed) : bool :=
  let '(first, second) := if (to_start a <=? to_start b)%Z then (a, b) else (b, a) in
  (to_start second <=? to_end first)%Z.

(** timedobject.cpp:93-109 [TimeSafeDivider].  [pow] is exact for the powers that fit; the
    conversion of a larger one to [int] is undefined. *)
Fixpoint safe_divider_loop (fuel : nat) (t : timed) (k : nat) : res Z :=
  match fuel with
  | 0 => NoFuel
  | S fuel' =>
      let k := S k in
      let value := (10 ^ Z.of_nat k)%Z in
      if (2147483647 <? value)%Z then Undef
      else if ((to_start t mod value =? 0) && (to_end t mod value =? 0))%Z%bool
           then safe_divider_loop fuel' t k
           else Ok (10 ^ Z.of_nat (k - 1))%Z
  end.
Definition time_safe_divider (t : timed) : res Z :=
  if ((0 <=? to_start t) && (0 <=? to_end t))%Z%bool then safe_divider_loop 11 t 0 else Ok 1%Z.
