(** Model of the word weight lists, /repo/src/sclite/wwscr_f.c:255-287, 324-459, 546-574 and
    align.c:735-749.

    What is simplified: weights are exact numbers, read by any function [num] in the place of atof;
    comment lines are searched byte by byte, which is what the code does with characters of one byte
    (and, without a language profile, with well formed text of the other encodings); messages, the
    memory released by free_WWL and dump_WWL are left out. *)
From Coq Require Import String List Arith ZArith NArith Bool.
From Verif Require Import Base Text_Model Word_Model Order_Model Store_Model Alex_Model AsStm_Model.
From Verif Require Sgml_Model.
Import ListNotations.
Local Open Scope res_scope.
Local Open Scope nat_scope.

(** wwscr_f.h:4 *)
Definition MAX_W : nat := 10.
(** wwscr_f.h:6-9 [WW]: the word and its array of weights; a weight that was never written is [None] *)
Record ww := { ww_str : str; ww_weight : list (option Z) }.
(** wwscr_f.h:11-20 [WWL]: the names of the [num_w] columns, the default weight, the words *)
Record wwl := { l_desc : list str; l_default : Z; l_words : list ww }.

(** 1.0; weights are in thousandths *)
Definition ONE : Z := 1000%Z.
(** text.c:1404-1417 [TEXT_is_comment] *)
Definition is_comment (s : str) : bool :=
  match s with a :: b :: _ => (a =? 59)%N && (b =? 59)%N | _ => false end.
(** text.c:1383-1398 [TEXT_is_empty] *)
Fixpoint is_empty (e : enc) (s : str) : res bool :=
  match s with
  | [] => Ok true
  | c :: r =>
      let* sz := nbytes e s in
      if 1 <? sz then Ok false else if isspace c then is_empty e r else Ok false
  end.
(** text.c:653-673 [TEXT_strstr]: what follows the first place of [p], in any case *)
Fixpoint after (p s : str) : option str :=
  if starts (map lower p) (map lower s) then Some (skipn (length p) s)
  else match s with [] => None | _ :: r => after p r end.
(** text.c:919-921 [TEXT_strchr](s, '\''): what precedes and what follows the first quotation mark *)
Fixpoint quote (s : str) : option (str * str) :=
  match s with
  | [] => None
  | c :: r => if (c =? 39)%N then Some ([], r)
              else match quote r with Some (a, b) => Some (c :: a, b) | None => None end
  end.

(** The variables of [load_WWL] while it reads: the array [words] and its used cells [num],
    count_guess, min_weight, the names and the default weight *)
Record state := {
  s_words : list (option ww); s_num : nat; s_guess : nat; s_min : nat;
  s_desc : list str; s_default : Z
}.
(** wwscr_f.c:331-339, 366 *)
Definition start : state :=
  {| s_words := []; s_num := 0; s_guess := 100; s_min := 10; s_desc := []; s_default := 0%Z |}.

Section Load.
(** atof *)
Variable num : str -> Z.
Variable e : enc.

(** wwscr_f.c:388-398: a larger array when the words fill it *)
Definition room (s : state) : res state :=
  if length (s_words s) <? s_num s + 1 then
    if s_guess s <? s_num s then Undef
    else Ok {| s_words := firstn (s_num s) (s_words s) ++ repeat None (s_guess s - s_num s); s_num := s_num s;
               s_guess := s_guess s * 3 / 2; s_min := s_min s; s_desc := s_desc s; s_default := s_default s |}
  else Ok s.
(** wwscr_f.c:379-405: a line of data; [None] is the return with an error *)
Definition data (buff : str) (s : state) : res (option state) :=
  match firstn 6 (pieces isspace [] buff) with
  | w :: x :: xs =>
      let ret := S (S (length xs)) in
      let* s := room s in
      let ws := map (fun x => Some (num x)) (x :: xs) in
      let* a := set (s_words s) (s_num s) (Some {| ww_str := w; ww_weight := ws ++ repeat None (MAX_W - length ws) |}) in
      Ok (Some {| s_words := a; s_num := s_num s + 1; s_guess := s_guess s; s_min := Nat.min ret (s_min s);
                  s_desc := s_desc s; s_default := s_default s |})
  | _ => Ok None
  end.
(** wwscr_f.c:416-424: the names in quotation marks; after an opening mark without a closing one the
    search goes on from the address 1 *)
Fixpoint names (fuel : nat) (p : str) (descs : list str) : res (list str) :=
  match fuel with
  | O => NoFuel
  | S f =>
      match quote p with
      | None => Ok descs
      | Some (_, p1) =>
          match quote p1 with
          | None => Undef
          | Some (d, r) => if length descs <? MAX_W then names f r (descs ++ [d]) else Undef
          end
      end
  end.
Definition HEADINGS : str := bytes "'Headings'".
Definition SPELLING : str := bytes "'Word Spelling'".
Definition MISSING : str := bytes "Default missing weight".
(** wwscr_f.c:406-436: a comment or an empty line *)
Definition remark (buff : str) (s : state) : res (option state) :=
  match after HEADINGS buff with
  | Some p =>
      match after SPELLING p with
      | None => Ok (Some s)
      | Some p =>
          let* d := names (S (length p)) p (s_desc s) in
          Ok (Some {| s_words := s_words s; s_num := s_num s; s_guess := s_guess s; s_min := s_min s;
                      s_desc := d; s_default := s_default s |})
      end
  | None =>
      match after MISSING buff with
      | None => Ok (Some s)
      | Some _ =>
          match quote buff with
          | None => Ok (Some s)
          | Some (_, p1) =>
              match quote p1 with
              | None => Ok (Some s)
              | Some (d, _) =>
                  Ok (Some {| s_words := s_words s; s_num := s_num s; s_guess := s_guess s; s_min := s_min s;
                              s_desc := s_desc s; s_default := num d |})
              end
          end
      end
  end.
(** wwscr_f.c:376-437, one line *)
Definition line (buff : str) (s : state) : res (option state) :=
  let* b := if is_comment buff then Ok true else is_empty e buff in
  if b then remark buff s else data buff s.

(** the string in the buffer ends at the first null byte *)
Fixpoint string_in (l : str) : str :=
  match l with [] => [] | c :: r => if (c =? 0)%N then [] else c :: string_in r end.
(** text.c:1212-1232 [TEXT_fgets]: a line that fills the buffer makes it ask whether to go on, which
    [go] answers *)
Variable go : bool.
Definition whole (buff : str) : bool :=
  negb (length buff =? N.to_nat 999) || (last buff 0 =? 10)%N.
(** wwscr_f.c:375-437 *)
Fixpoint lines (fuel : nat) (file : str) (s : state) : res (option state) :=
  match fuel with
  | O => NoFuel
  | S f =>
      match file with
      | [] => Ok (Some s)
      | _ =>
          let (l, r) := take_line (N.to_nat 999) file in
          let buff := string_in l in
          if whole buff || go then
            let* o := line buff s in
            match o with None => Ok None | Some s => lines f r s end
          else Exit
      end
  end.

(** qsort of the C library with compare_WW, wwscr_f.c:284-287 *)
Variable sort : list ww -> list ww.
(** wwscr_f.c:448-451: the name of a column without a heading *)
Definition column (name : str) (w : nat) : str := name ++ bytes " Col " ++ Sgml_Model.nat_text (N.of_nat (w + 1)).
(** wwscr_f.c:439-456 *)
Definition finish (name : str) (s : state) : res (option wwl) :=
  let* ws := each (fun c => match c with Some w => Ok w | None => Undef end) (firstn (s_num s) (s_words s)) in
  let done d := Ok (Some {| l_desc := d; l_default := s_default s; l_words := sort ws |}) in
  match s_desc s with
  | [] => if s_min s <? 2 then Ok None else done (map (column name) (seq 0 (s_min s - 1)))
  | d => done d
  end.
(** wwscr_f.c:324-459 [load_WWL]; the file is [None] when it cannot be opened.  The list for "unity"
    has one name that is not counted. *)
Definition load_WWL (name : str) (file : option str) : res (option wwl) :=
  match name with
  | [] => Ok None
  | _ =>
      let* z := strcmp e (cstr name) (cstr (bytes "unity")) in
      if (z =? 0)%Z then
        Ok (Some {| l_desc := []; l_default := ONE;
                    l_words := sort [{| ww_str := bytes "the"; ww_weight := Some (ONE) :: repeat None (MAX_W - 1) |}] |})
      else
        match file with
        | None => Ok None
        | Some f =>
            let* o := lines (S (length f)) f start in
            match o with None => Ok None | Some s => finish name s end
        end
  end.
End Load.

(** wwscr_f.c:546-574 [get_weight_from_WW]: the loop; [k] is curw *)
Fixpoint search (fuel : nat) (e : enc) (l : wwl) (k : nat) (w : str) (low high : Z) : res Z :=
  match fuel with
  | O => NoFuel
  | S f =>
      let mid := Z.quot (low + high) 2 in
      let next low high := if (low <=? high)%Z then search f e l k w low high else Ok (l_default l) in
      if (mid <? Z.of_nat (length (l_words l)))%Z then
        if (mid <? 0)%Z then Undef
        else
          let* x := get (l_words l) (Z.to_nat mid) in
          let* z := strcmp e (cstr w) (cstr (ww_str x)) in
          if (z =? 0)%Z then
            let* v := get (ww_weight x) k in
            match v with Some v => Ok v | None => Undef end
          else if (z <? 0)%Z then next low (mid - 1)%Z
          else next (mid + 1)%Z high
      else next low high
  end.
Definition get_weight (e : enc) (l : wwl) (k : nat) (w : str) : res Z :=
  search (S (length (l_words l))) e l k w 0%Z (Z.of_nat (length (l_words l)) - 1)%Z.
(** wwscr_f.c:266-275: the sum over the parts *)
Fixpoint sum_parts (e : enc) (l : wwl) (k : nat) (ps : list str) (sum : Z) : res Z :=
  match ps with
  | [] => Ok sum
  | p :: r => let* z := get_weight e l k p in sum_parts e l k r (sum + z)%Z
  end.
(** wwscr_f.c:255-276 [Weight_wwl]: a compound word is copied into a buffer of 100 bytes and cut at
    its "=" by TEXT_strtok, text.c:924-967 *)
Definition weight (e : enc) (l : wwl) (k : nat) (w : str) : res Z :=
  if existsb (N.eqb 61) w then
    if length w <? 100 then sum_parts e l k (pieces (N.eqb 61) [] w) 0%Z else Undef
  else get_weight e l k w.
(** wwscr_f.c:279-282 [Weight_one] *)
Definition weight_one : Z := ONE.

(** align.c:735-749 [lookup_word_weight]: the weight of the word of an arc *)
Definition arc_weight (e : enc) (l : wwl) (k : nat) (value : option str) (opt_del : bool) : res Z :=
  match value with
  | None => Ok 0%Z
  | Some v =>
      let* z := strcmp e (cstr v) (cstr [64%N]) in
      if (z =? 0)%Z then Ok 0%Z else if opt_del then Ok 0%Z else weight e l k v
  end.
