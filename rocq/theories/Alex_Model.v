(** The growing lexicon of sclite, /repo/src/sclite/alex.c, behind the lists of confusion pairs,
    insertions, deletions and substitutions of the detailed report. *)
From Coq Require Import List Arith ZArith NArith Bool.
From Verif Require Import Base Text_Model Word_Model Order_Model.
Import ListNotations.
Local Open Scope res_scope.
Local Open Scope nat_scope.

(** alex.h AUTO_LEX.  A cell of [str] and [sort] that holds nothing yet is [None]: a null pointer, a
    zero no one wrote, or uninitialised memory.  Using it gives [Undef] here.  [field_c] is never used
    by these functions and left out.  Strings are given by their bytes without the terminator. *)
Record lex := {
  x_max : nat; x_num : nat;
  x_str : list (option (list N)); x_a : list Z; x_b : list nat; x_sort : list (option nat)
}.
(** the content of a cell *)
Definition cell {A} (l : list (option A)) (i : nat) : res A :=
  let* c := get l i in match c with Some x => Ok x | None => Undef end.

(** alex.c:5-13 [AUTO_LEX_init] *)
Definition lex_init (size : nat) : lex :=
  {| x_max := size; x_num := 0; x_str := repeat None size; x_a := repeat 0%Z size; x_b := repeat 0 size;
     x_sort := repeat None size |}.

(** alex.c:37-49, the loop of [index_search]; [inl] a position that holds the string, [inr] the position
    where it belongs *)
Fixpoint search_loop (fuel : nat) (e : enc) (l : lex) (goal : list N) (low high : Z) : res (nat + nat) :=
  match fuel with
  | O => NoFuel
  | S f =>
      let mid := Z.quot (low + high) 2 in
      let* i := cell (x_sort l) (Z.to_nat mid) in
      let* s := cell (x_str l) i in
      let* eval := strcmp e (cstr goal) (cstr s) in
      if (eval =? 0)%Z then Ok (inl (Z.to_nat mid))
      else
        let '(low, high) := if (eval <? 0)%Z then (low, (mid - 1)%Z) else ((mid + 1)%Z, high) in
        if (low <=? high)%Z then search_loop f e l goal low high else Ok (inr (Z.to_nat low))
  end.
(** alex.c:25-53 [index_search] *)
Definition index_search (e : enc) (l : lex) (goal : list N) : res (nat + nat) :=
  let high := (Z.of_nat (x_num l) - 1)%Z in
  if (high <? 0)%Z then Ok (inr 0) else search_loop (S (x_num l)) e l goal 0 high.
(** alex.c:55-61 [AUTO_LEX_find]: a position in the order of the strings, not the number of the string *)
Definition lex_find (e : enc) (l : lex) (s : list N) : res Z :=
  let* r := index_search e l s in
  Ok (match r with inl i => Z.of_nat i | inr _ => (-1)%Z end).

(** alex.c:71-103: all the arrays are doubled; only the number fields are filled with zeros *)
Definition expand (l : lex) : lex :=
  if x_max l <=? x_num l + 1 then
    {| x_max := x_max l * 2; x_num := x_num l;
       x_str := x_str l ++ repeat None (x_max l); x_a := x_a l ++ repeat 0%Z (x_max l);
       x_b := x_b l ++ repeat 0 (x_max l); x_sort := x_sort l ++ repeat None (x_max l) |}
  else l.
(** alex.c:118-121: the cells from [ind] on move up by one, from the last one down *)
Fixpoint shift (k : nat) (sort : list (option nat)) (x : nat) : res (list (option nat)) :=
  match k with
  | O => Ok sort
  | S k' =>
      let* c := get sort (x - 1) in
      let* sort := set sort x c in
      shift k' sort (x - 1)
  end.
(** alex.c:63-129 [AUTO_LEX_insert]: the lexicon and the number of the string *)
Definition lex_insert (e : enc) (l : lex) (new : list N) : res (lex * nat) :=
  let l := expand l in
  let* r := index_search e l new in
  match r with
  | inl ind => let* i := cell (x_sort l) ind in Ok (l, i)
  | inr ind =>
      let* sort := shift (x_num l - ind) (x_sort l) (x_num l) in
      let* sort := set sort ind (Some (x_num l)) in
      let* str := set (x_str l) (x_num l) (Some new) in
      Ok ({| x_max := x_max l; x_num := x_num l + 1; x_str := str; x_a := x_a l; x_b := x_b l; x_sort := sort |},
          x_num l)
  end.
(** sc_dtl.c:467-468 and the other places: [lid = AUTO_LEX_insert(..); talex->field_a[lid] ++] *)
Definition lex_count (e : enc) (l : lex) (new : list N) : res lex :=
  let* (l, lid) := lex_insert e l new in
  let* n := get (x_a l) lid in
  let* a := set (x_a l) lid (n + 1)%Z in
  Ok {| x_max := x_max l; x_num := x_num l; x_str := x_str l; x_a := a; x_b := x_b l; x_sort := x_sort l |}.
Fixpoint lex_count_all (e : enc) (l : lex) (ws : list (list N)) : res lex :=
  match ws with
  | [] => Ok l
  | w :: r => let* l := lex_count e l w in lex_count_all e l r
  end.

(** a list with a function that can fail applied to each element *)
Fixpoint each {A B} (f : A -> res B) (l : list A) : res (list B) :=
  match l with
  | [] => Ok []
  | x :: r => let* y := f x in let* ys := each f r in Ok (y :: ys)
  end.

Section Printout.
(** qsort of the C library *)
Variable qsort : (nat -> nat -> Z) -> list nat -> list nat.

(** order.c:42-44 [qsort_int_compare] on positions *)
Definition pos_cmp (i j : nat) : Z := (Z.of_nat i - Z.of_nat j)%Z.
(** alex.c:179-182: past the run of strings that occur equally often *)
Fixpoint run_end (fuel : nat) (a : list Z) (b : list nat) (num beg pos : nat) : res nat :=
  match fuel with
  | O => NoFuel
  | S f =>
      if pos <? num then
        let* p := get b beg in let* x := get a p in
        let* q := get b pos in let* y := get a q in
        if (x =? y)%Z then run_end f a b num beg (pos + 1) else Ok pos
      else Ok pos
  end.
(** alex.c:185-190: the position of a string in the order of the strings; [exit] when there is none *)
Fixpoint position (fuel : nat) (sort : list (option nat)) (num i w : nat) : res nat :=
  match fuel with
  | O => NoFuel
  | S f =>
      if w <? num then
        let* c := cell sort w in
        if c =? i then Ok w else position f sort num i (w + 1)
      else Exit
  end.
(** alex.c:177-200: the runs put in the order of the strings.  The three loops over the cells from
    [beg_pos] to [pos] are written on the list of these cells, which replaces them in the array. *)
Fixpoint runs (fuel : nat) (l : lex) (b : list nat) (pos : nat) : res (list nat) :=
  match fuel with
  | O => NoFuel
  | S f =>
      if pos <? x_num l then
        let* fin := run_end (S (x_num l)) (x_a l) b (x_num l) pos pos in
        let* ws := each (fun i => position (S (x_num l)) (x_sort l) (x_num l) i 0) (firstn (fin - pos) (skipn pos b)) in
        let* is := each (cell (x_sort l)) (qsort pos_cmp ws) in
        runs f l (firstn pos b ++ is ++ skipn fin b) fin
      else Ok b
  end.

(** what is printed: the number of strings, the number said to occur often enough, the lines with the
    number of the line, the occurrences and the string, and the sum under them *)
Record listing := { li_total : nat; li_often : nat; li_lines : list (nat * Z * list N); li_sum : Z }.
(** alex.c:205-207 *)
Fixpoint often (k : nat) (l : lex) (threshold : Z) (ind sumu : nat) : res nat :=
  match k with
  | O => Ok sumu
  | S k' =>
      let* i := cell (x_sort l) ind in
      let* n := get (x_a l) i in
      often k' l threshold (ind + 1) (if (threshold <=? n)%Z then sumu + 1 else sumu)
  end.
(** alex.c:212-218; the test looks the number of the string up in [sort] once more *)
Fixpoint lines (k : nat) (l : lex) (b : list nat) (threshold : Z) (ind ord : nat) (sum : Z)
  : res (list (nat * Z * list N) * Z) :=
  match k with
  | O => Ok ([], sum)
  | S k' =>
      let* i := get b ind in
      let* j := cell (x_sort l) i in
      let* t := get (x_a l) j in
      if (threshold <=? t)%Z then
        let* n := get (x_a l) i in
        let* s := cell (x_str l) i in
        let* (r, sum) := lines k' l b threshold (ind + 1) (ord + 1) (sum + n)%Z in
        Ok ((ord + 1, n, s) :: r, sum)
      else lines k' l b threshold (ind + 1) ord sum
  end.
(** alex.c:167-222 [AUTO_LEX_printout]; [sort_int_arr] fills the first [num] cells of [field_b] *)
Definition lex_printout (l : lex) (threshold : Z) : res listing :=
  if (x_num l <=? length (x_a l)) && (x_num l <=? length (x_b l)) then
    let b := sort_int_arr qsort (firstn (x_num l) (x_a l)) Decreasing ++ skipn (x_num l) (x_b l) in
    let* b := runs (S (x_num l)) l b 0 in
    let* sumu := often (x_num l) l threshold 0 0 in
    let* (ls, sum) := lines (x_num l) l b threshold 0 0 0%Z in
    Ok {| li_total := x_num l; li_often := sumu; li_lines := ls; li_sum := sum |}
  else Undef.

(** a lexicon of the given size, the strings counted, then the list printed; sc_dtl.c:222-226 *)
Definition listing_of_words (e : enc) (size : nat) (ws : list (list N)) (threshold : Z) : res listing :=
  let* l := lex_count_all e (lex_init size) ws in lex_printout l threshold.
End Printout.
