(** sclite's encoding-aware strings, /repo/src/sclite/text.c.

    A [TEXT *] is modelled as the list of bytes from the pointer to the end of the memory block
    it points into, terminator and whatever follows it included; reading the empty list is a
    read outside the block and gives [Undef].  Bytes are [N] (the C type is unsigned char). *)
From Coq Require Import List Arith ZArith NArith Bool.
From Verif Require Import Base.
Import ListNotations.
Local Open Scope res_scope.
Local Open Scope N_scope.

Notation byte := N (only parsing).
Notation mem := (list N) (only parsing).

(** text.h:18 *)
Inductive enc := ASCII | EXTASCII | GB | UTF8.

(** [*p] *)
Definition rd (m : mem) : res byte :=
  match m with b :: _ => Ok b | [] => Undef end.

(** [p + k]; pointing one past the block is allowed, further is not *)
Definition adv (k : nat) (m : mem) : res mem :=
  if Nat.leb k (length m) then Ok (skipn k m) else Undef.

(** text.c:382-384 [end_of_TEXT] *)
Definition end_of_text (b : byte) : bool := b =? 0.

(** text.c:462-491 [TEXT_nbytes_of_char].  The static encoding is an argument. *)
Definition nbytes (e : enc) (m : mem) : res nat :=
  match e with
  | ASCII | EXTASCII => Ok 1%nat
  | GB => let* p := rd m in if N.land p 0x80 =? 0 then Ok 1%nat else Ok 2%nat
  | UTF8 =>
      let* p := rd m in
      if N.land p 0x80 =? 0 then Ok 1%nat
      else if N.land p 0xE0 =? 0xC0 then Ok 2%nat
      else if N.land p 0xF0 =? 0xE0 then Ok 3%nat
      else if N.land p 0xF8 =? 0xF0 then Ok 4%nat
      else if N.land p 0xFC =? 0xF8 then Ok 5%nat
      else if N.land p 0xFE =? 0xFC then Ok 6%nat
      else Exit
  end.

(** text.c:676-684 [TEXT_strlen] *)
Fixpoint strlen (m : mem) : res nat :=
  match m with
  | [] => Undef
  | b :: m' => if b =? 0 then Ok 0%nat else let* n := strlen m' in Ok (S n)
  end.

(** text.c:687-694 [TEXT_chrlen] *)
Fixpoint chrlen_loop (fuel : nat) (e : enc) (m : mem) : res nat :=
  match fuel with
  | O => NoFuel
  | S f =>
      let* b := rd m in
      if b =? 0 then Ok 0%nat
      else let* k := nbytes e m in
           let* m' := adv k m in
           let* n := chrlen_loop f e m' in Ok (S n)
  end.
Definition chrlen (e : enc) (m : mem) : res nat := chrlen_loop (S (length m)) e m.

(** text.c:790-800, the comparison of the [k] bytes of one character: [inl] is a return of the
    whole comparison, [inr] the pointers after the character.  The single-byte branch
    (796-799) does the same as the loop (790-795) does for one byte. *)
Fixpoint cmp_char (k : nat) (p1 p2 : mem) : res (Z + mem * mem) :=
  match k with
  | O => Ok (inr (p1, p2))
  | S k' =>
      let* a := rd p1 in
      let* b := rd p2 in
      if a =? b then cmp_char k' (tl p1) (tl p2)
      else Ok (inl (if a <? b then (-1)%Z else 1%Z))
  end.

(** text.c:758-805 [TEXT_strcmp_master] without case conversion (doCase = 0) and for non-null
    pointers; [n] is the limit in characters, -1 for none.  The loop is a do-while, so the
    first character is compared whatever [n] is. *)
Fixpoint strcmp_loop (fuel : nat) (e : enc) (n : Z) (iter : Z) (p1 p2 : mem) : res Z :=
  match fuel with
  | O => NoFuel
  | S f =>
      let* a := rd p1 in
      let* b := rd p2 in
      if end_of_text a && end_of_text b then Ok 0%Z
      else if end_of_text b then Ok 1%Z
      else if end_of_text a then Ok (-1)%Z
      else
        let* c1 := nbytes e p1 in
        let* c2 := nbytes e p2 in
        if negb (Nat.eqb c1 c2) then Ok (if Nat.ltb c1 c2 then (-1)%Z else 1%Z)
        else
          let* r := cmp_char c1 p1 p2 in
          match r with
          | inl z => Ok z
          | inr (q1, q2) =>
              if (n =? -1)%Z || (iter + 1 <? n)%Z
              then strcmp_loop f e n (iter + 1) q1 q2
              else Ok 0%Z
          end
  end.
(** text.c:845 [TEXT_strCcmp] *)
Definition strccmp (e : enc) (p1 p2 : mem) (n : Z) : res Z :=
  strcmp_loop (S (length p1)) e n 0 p1 p2.
(** text.c:853 [TEXT_strcmp] *)
Definition strcmp (e : enc) (p1 p2 : mem) : res Z := strccmp e p1 p2 (-1).

(** text.c:640-650 [TEXT_strcpy_escaped]: the bytes written, terminator excluded.  The caller
    provides the room; its size is not modelled here. *)
Fixpoint escaped (m : mem) (chr : byte) : res (list byte) :=
  match m with
  | [] => Undef
  | b :: m' =>
      if b =? 0 then Ok []
      else let* r := escaped m' chr in
           Ok (if b =? chr then 92 :: b :: r else b :: r)
  end.

(** text.c:718-735 [TEXT_strBdup_noEscape]: copies [n] bytes of input without the backslashes *)
Fixpoint no_escape (m : mem) (n : nat) {struct n} : res (list byte) :=
  match n with
  | O => Ok []
  | S n' =>
      match m with
      | [] => Undef
      | b :: m' => let* r := no_escape m' n' in Ok (if b =? 92 then r else b :: r)
      end
  end.

(** text.c:976-1008 [TEXT_getUTFCodePoint] for a non-null pointer; [m_i] is the byte at
    offset [i] *)
Definition at_off (m : mem) (i : nat) : res byte := rd (skipn i m).
Definition low6 (b : byte) : N := N.land b 0x3F.
Definition get_code_point (e : enc) (m : mem) : res N :=
  match e with
  | UTF8 =>
      let* n := nbytes e m in
      match n with
      | 1%nat => rd m
      | 2%nat =>
          let* b0 := at_off m 0 in let* b1 := at_off m 1 in
          Ok (N.shiftl (N.land b0 0x1F) 6 + low6 b1)
      | 3%nat =>
          let* b0 := at_off m 0 in let* b1 := at_off m 1 in let* b2 := at_off m 2 in
          Ok (N.shiftl (N.land b0 0xF) 12 + N.shiftl (low6 b1) 6 + low6 b2)
      | 4%nat =>
          let* b0 := at_off m 0 in let* b1 := at_off m 1 in let* b2 := at_off m 2 in
          let* b3 := at_off m 3 in
          Ok (N.shiftl (N.land b0 0x7) 18 + N.shiftl (low6 b1) 12 + N.shiftl (low6 b2) 6
              + low6 b3)
      | 5%nat =>
          let* b0 := at_off m 0 in let* b1 := at_off m 1 in let* b2 := at_off m 2 in
          let* b3 := at_off m 3 in let* b4 := at_off m 4 in
          Ok (N.shiftl (N.land b0 0x3) 24 + N.shiftl (low6 b1) 18 + N.shiftl (low6 b2) 12
              + N.shiftl (low6 b3) 6 + low6 b4)
      | _ => Exit
      end
  | _ => Exit
  end.

(** text.c:1012-1037 [TEXT_UTFCodePointToTEXT]: the ten bytes of the static buffer.  Code
    points are [N]; a byte assignment keeps the value modulo 256. *)
Definition pad10 (l : list byte) : mem := map (fun b => b mod 256) l ++ repeat 0 (10 - length l).
Definition code_point_to_text (e : enc) (c : N) : res mem :=
  match e with
  | UTF8 =>
      if c <? 0x80 then Ok (pad10 [c])
      else if c <? 0x800 then Ok (pad10 [192 + c / 64; 128 + c mod 64])
      else if c <? 0x10000 then
        Ok (pad10 [224 + c / 4096; 128 + (c / 64) mod 64; 128 + c mod 64])
      else if c <? 0x20000 then
        Ok (pad10 [240 + c / 262144; 128 + (c / 4096) mod 64; 128 + (c / 64) mod 64;
                   128 + c mod 64])
      else Exit
  | _ => Exit
  end.

(** isspace of the C locale *)
Definition isspace (b : byte) : bool := (b =? 32) || ((9 <=? b) && (b <=? 13)).
(** text.c:354-355, 363 [VTisspace] applied to the byte a pointer points at *)
Definition vtisspace (e : enc) (m : mem) : res bool :=
  let* k := nbytes e m in
  if Nat.eqb k 2 then Ok false
  else let* b := rd m in
       Ok (if negb (N.land b 0x80 =? 0) then false else isspace b).

(** The token buffer of the extraction functions: the bytes stored so far, in a buffer of
    [cap] bytes; storing outside it is undefined. *)
Definition put (cap : nat) (out : list byte) (b : byte) : res (list byte) :=
  if Nat.ltb (length out) cap then Ok (out ++ [b]) else Undef.
(** storing the terminator *)
Definition finish (cap : nat) (out : list byte) : res (list byte) :=
  if Nat.ltb (length out) cap then Ok out else Undef.

(** text.c:1294-1300, 1309-1315: copies the [k] bytes of a character; [Full] is the early
    return when more than [len] bytes have been asked for, with the position then reached.  The
    count [c] of the source is the number of bytes stored. *)
Inductive copied (A : Type) := Copied (a : A) (m : mem) | Full (m : mem).
Arguments Copied {A}. Arguments Full {A}.
Fixpoint copy_char (cap len k : nat) (out : list byte) (m : mem)
  : res (copied (list byte)) :=
  match k with
  | O => Ok (Copied out m)
  | S k' =>
      if Nat.ltb len (S (length out)) then Ok (Full m)
      else let* b := rd m in
           let* out' := put cap out b in
           copy_char cap len k' out' (tl m)
  end.

(** text.c:1274-1276 and 1338-1340: skipping leading white space (and slashes) *)
Fixpoint skip_loop (fuel : nat) (e : enc) (slash : bool) (m : mem) : res mem :=
  match fuel with
  | O => NoFuel
  | S f =>
      let* w := vtisspace e m in
      let* b := rd m in
      if w || (slash && (b =? 47))
      then let* k := nbytes e m in
           let* m' := adv k m in skip_loop f e slash m'
      else Ok m
  end.

(** text.c:1306-1318, the do-while of a word *)
Fixpoint word_loop (fuel : nat) (e : enc) (cap len : nat) (out : list byte) (m : mem)
  : res (copied (list byte)) :=
  match fuel with
  | O => NoFuel
  | S f =>
      let* k := nbytes e m in
      let* r := copy_char cap len k out m in
      match r with
      | Full m' => Ok (Full m')
      | Copied out' m' =>
          let* b := rd m' in
          if end_of_text b then Ok (Copied out' m')
          else let* w := vtisspace e m' in
               if w then Ok (Copied out' m') else word_loop f e cap len out' m'
      end
  end.

(** text.c:1285-1302, the do-while of an alternation; [cnt] is [alt_cnt] *)
Fixpoint alt_loop (fuel : nat) (e : enc) (cap len : nat) (cnt : Z) (out : list byte) (m : mem)
  : res (copied (Z * list byte)) :=
  match fuel with
  | O => NoFuel
  | S f =>
      let* k := nbytes e m in
      let* b := rd m in
      let cnt1 := if b =? 123 then (cnt + 1)%Z else cnt in
      let cnt2 := if b =? 125 then (cnt1 - 1)%Z else cnt1 in
      let* r := copy_char cap len k out m in
      match r with
      | Full m' => Ok (Full m')
      | Copied out' m' =>
          let* b' := rd m' in
          if negb (end_of_text b') && (0 <? cnt2)%Z
          then alt_loop f e cap len cnt2 out' m'
          else Ok (Copied (cnt2, out') m')
      end
  end.

(** The result of an extraction: the value returned (1 or 0), the string left in the buffer when
    it has been terminated, and the new position in the text. *)
Record token_result := { tr_found : bool; tr_token : option (list byte); tr_rest : mem }.

(** text.c:1264-1322 [find_next_TEXT_token].  After an early return for lack of room the buffer
    is not terminated ([tr_token] is [None]). *)
Definition find_next_token (e : enc) (cap len : nat) (m : mem) : res token_result :=
  let* _ := finish cap [] in
  let* m1 := skip_loop (S (length m)) e false m in
  let* b := rd m1 in
  if end_of_text b then Ok {| tr_found := false; tr_token := Some []; tr_rest := m1 |}
  else if b =? 123 then
    let* r := alt_loop (S (length m1)) e cap len 0 [] m1 in
    match r with
    | Full m2 => Ok {| tr_found := false; tr_token := None; tr_rest := m2 |}
    | Copied (cnt, out) m2 =>
        let* tok := finish cap out in
        Ok {| tr_found := negb (0 <? cnt)%Z; tr_token := Some tok; tr_rest := m2 |}
    end
  else
    let* r := word_loop (S (length m1)) e cap len [] m1 in
    match r with
    | Full m2 => Ok {| tr_found := false; tr_token := None; tr_rest := m2 |}
    | Copied out m2 =>
        let* tok := finish cap out in
        Ok {| tr_found := true; tr_token := Some tok; tr_rest := m2 |}
    end.

(** text.c:1344-1372, the do-while of [find_next_TEXT_alternation] *)
Fixpoint piece_loop (fuel : nat) (e : enc) (cap len : nat) (cnt : Z) (out : list byte) (m : mem)
  : res (copied (list byte)) :=
  match fuel with
  | O => NoFuel
  | S f =>
      let* k := nbytes e m in
      let* b := rd m in
      let cnt1 := if negb (Nat.ltb 1 k) && (b =? 123) then (cnt + 1)%Z else cnt in
      let cnt2 := if negb (Nat.ltb 1 k) && (b =? 125) then (cnt1 - 1)%Z else cnt1 in
      let* r := copy_char cap len k out m in
      match r with
      | Full m' => Ok (Full m')
      | Copied out' m' =>
          let* b' := rd m' in
          if (negb (b' =? 47) || (0 <? cnt2)%Z) && (negb (b' =? 125) || (0 <? cnt2)%Z)
             && negb (end_of_text b')
          then piece_loop f e cap len cnt2 out' m'
          else Ok (Copied out' m')
      end
  end.

(** text.c:1325-1376 [find_next_TEXT_alternation] *)
Definition find_next_alternation (e : enc) (cap len : nat) (m : mem) : res token_result :=
  let* _ := finish cap [] in
  let* m1 := skip_loop (S (length m)) e true m in
  let* b := rd m1 in
  if end_of_text b then Ok {| tr_found := false; tr_token := Some []; tr_rest := m1 |}
  else
    let* r := piece_loop (S (length m1)) e cap len 0 [] m1 in
    match r with
    | Full m2 => Ok {| tr_found := false; tr_token := None; tr_rest := m2 |}
    | Copied out m2 =>
        let* tok := finish cap out in
        Ok {| tr_found := true; tr_token := Some tok; tr_rest := m2 |}
    end.

(** net_adt.c:485-500, the loop of [Network_create_from_TEXT] that collects the tokens of a
    transcript *)
Fixpoint tokens_loop (fuel : nat) (e : enc) (cap len : nat) (m : mem) : res (list (list byte)) :=
  match fuel with
  | O => NoFuel
  | S f =>
      let* b := rd m in
      if end_of_text b then Ok []
      else
        let* r := find_next_token e cap len m in
        let* ts := tokens_loop f e cap len (tr_rest r) in
        Ok (match tr_token r with
            | Some tok => if tr_found r then tok :: ts else ts
            | None => ts
            end)
  end.
Definition tokens (e : enc) (cap len : nat) (m : mem) : res (list (list byte)) :=
  tokens_loop (S (length m)) e cap len m.

(** C's [fgets(buf, n, fp)] for [n >= 2]: [file] is what remains to be read.  [None] is the
    null result at the end of the file. *)
Fixpoint take_line (n : nat) (file : list byte) : list byte * list byte :=
  match n, file with
  | S n', b :: f' =>
      if b =? 10 then ([b], f')
      else let (l, r) := take_line n' f' in (b :: l, r)
  | _, _ => ([], file)
  end.

(** storing [bs] at offset [off] of a block *)
Definition store (buf : mem) (off : nat) (bs : list byte) : res mem :=
  if Nat.leb (off + length bs) (length buf)
  then Ok (firstn off buf ++ bs ++ skipn (off + length bs) buf)
  else Undef.

Definition fgets (buf : mem) (off n : nat) (file : list byte) : res (option (mem * list byte)) :=
  match file with
  | [] => Ok None
  | _ =>
      let (l, r) := take_line (n - 1) file in
      let* buf' := store buf off (l ++ [0]) in
      Ok (Some (buf', r))
  end.

Section Lines.
  (** the contents of a freshly allocated block *)
  Variable fresh : nat -> mem.

  (** text.c:1241-1256.  [len] is [*len]; the result is the block, the new [*len] and the rest
      of the file.  [strcpy(xp, *arr)] is [store] of the string with its terminator. *)
  Fixpoint fgets_loop (fuel : nat) (arr : mem) (len : nat) (file : list byte)
    : res (mem * nat * list byte) :=
    match fuel with
    | O => NoFuel
    | S f =>
        let* l := strlen arr in
        match l with
        | O => Undef                       (* reads the byte before the block *)
        | S l' =>
            let* last := at_off arr l' in
            if last =? 10 then Ok (arr, len, file)
            else if Nat.ltb l (len - 1) then Ok (arr, len, file)
            else
              let* xp := store (fresh (len * 2)) 0 (firstn l arr ++ [0]) in
              let* g := fgets xp (len - 1) (len + 1) file in
              match g with
              | None => Ok (xp, len, file)
              | Some (arr', file') => fgets_loop f arr' (len * 2) file'
              end
        end
    end.

  (** text.c:1235-1257 [TEXT_ensure_fgets]; [None] is the null result *)
  Definition ensure_fgets (arr : mem) (len : nat) (file : list byte)
    : res (option (mem * nat * list byte)) :=
    let* g := fgets arr 0 len file in
    match g with
    | None => Ok None
    | Some (arr', file') =>
        let* r := fgets_loop (S (length file)) arr' len file' in Ok (Some r)
    end.

  (** the loop of the callers (for instance scores.c:1005): reads lines to the end of the file *)
  Fixpoint read_lines (fuel : nat) (arr : mem) (len : nat) (file : list byte)
    : res (list (list byte)) :=
    match fuel with
    | O => NoFuel
    | S f =>
        let* g := ensure_fgets arr len file in
        match g with
        | None => Ok []
        | Some (arr', len', file') =>
            let* l := strlen arr' in
            let* ls := read_lines f arr' len' file' in
            Ok (firstn l arr' :: ls)
        end
    end.
End Lines.

(** word.c:238-258 [nextColon]: the offset of the next separator that is not escaped, or of the
    terminator.  [before] is the byte before the pointer, [None] when the pointer is at the start
    of its block.  TEXT_strstr (text.c:653-673) with the one-character argument ";" is modelled
    as a character-wise search for that byte; its case folding leaves ";" alone. *)
Fixpoint find_sep (fuel : nat) (e : enc) (m : mem) : res (option nat) :=
  match fuel with
  | O => NoFuel
  | S f =>
      let* b := rd m in
      if b =? 0 then Ok None
      else if b =? 59 then Ok (Some 0%nat)
      else let* k := nbytes e m in
           let* m' := adv k m in
           let* r := find_sep f e m' in
           Ok (match r with None => None | Some i => Some (k + i)%nat end)
  end.

Fixpoint next_sep (fuel : nat) (e : enc) (before : option byte) (m : mem) (ext : nat) : res nat :=
  match fuel with
  | O => NoFuel
  | S f =>
      let* m' := adv ext m in
      let* r := find_sep (S (length m')) e m' in
      match r with
      | None => strlen m
      | Some i =>
          let pos := (ext + i)%nat in
          let* prev := match pos with
                       | O => match before with Some b => Ok b | None => Undef end
                       | S p => at_off m p
                       end in
          if prev =? 92 then next_sep f e before m (S pos) else Ok pos
      end
  end.

(** word.c:261-295 [new_WORD_parseText]: the text and the two tags of a word *)
Record parsed := { p_text : list byte; p_tag1 : option (list byte); p_tag2 : option (list byte) }.
Definition parse_word (e : enc) (m : mem) : res parsed :=
  let* b := rd m in
  if b =? 123 then
    let* l := strlen m in
    Ok {| p_text := firstn l m; p_tag1 := None; p_tag2 := None |}
  else
    let* i := next_sep (S (length m)) e None m 0 in
    let* text := no_escape m i in
    let* m1 := adv i m in
    let* b1 := rd m1 in
    if b1 =? 0 then Ok {| p_text := text; p_tag1 := None; p_tag2 := None |}
    else
      let* m2 := adv 1 m1 in
      let* i2 := next_sep (S (length m2)) e (Some b1) m2 0 in
      let* tag1 := no_escape m2 i2 in
      let* m3 := adv i2 m2 in
      let* b3 := rd m3 in
      if b3 =? 0 then Ok {| p_text := text; p_tag1 := Some tag1; p_tag2 := None |}
      else
        let* m4 := adv 1 m3 in
        let* i4 := next_sep (S (length m4)) e (Some b3) m4 0 in
        let* tag2 := no_escape m4 i4 in
        Ok {| p_text := text; p_tag1 := Some tag1; p_tag2 := Some tag2 |}.

(** scores.c:139-152 [formatWordForSGML]: the string left in the buffer *)
Definition tag_or_empty (t : option mem) : mem := match t with Some m => m | None => [0] end.
Definition format_word (value : mem) (tag1 tag2 : option mem) : res (list byte) :=
  let* v := escaped value 59 in
  match tag1, tag2 with
  | None, None => Ok v
  | _, _ =>
      let* t1 := escaped (tag_or_empty tag1) 59 in
      let* t2 := escaped (tag_or_empty tag2) 59 in
      Ok (v ++ [59] ++ t1 ++ [59] ++ t2)
  end.
