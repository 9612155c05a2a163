(** Model of the table generator, /repo/src/sclite/rpg.c, by which sclite and sc_stats print their
    reports.

    What is simplified: the arrays that grow (expand_REPORT_DEF_STRUCT) are lists, and tables have fewer
    than 50 columns.  Column locks (the part of a format after a colon), which no report uses, are left
    out: a format with a colon gives [Undef] here.  A column definition is kept with each row; equal
    formats have equal definitions.  Entries of col_inter_space past the columns of a definition are taken
    as never written.  [spread u n k] stands for (int)F_ROUND((double)u / (double)n * (double)k, 0), whose
    result depends on floating point at exact halves. *)
From Coq Require Import String Ascii List Arith ZArith NArith Bool.
From Verif Require Import Base.
Import ListNotations.
Local Open Scope res_scope.
Local Open Scope nat_scope.

Definition str := list N.
(** rpg.c:23-32 COLUMN_DEFS: for every column col_just and col_inter_space, and num_col_chars *)
Definition col := (N * N)%type.
Record cdef := { d_cols : list col; d_chars : nat }.

(** ** Formats *)
(** rpg.c:276-277: c C l L r R n a *)
Definition letter (c : N) : bool := existsb (N.eqb c) [99; 67; 108; 76; 114; 82; 110; 97]%N.
(** rpg.c:273-293 [Desc_set_justification]: [acc] are the columns up to col, [num] is num_col *)
Fixpoint parse (fuel : nat) (p : str) (acc : list col) (num chars : nat) : res cdef :=
  match fuel with
  | O => NoFuel
  | S f =>
      match p with
      | [] => Ok {| d_cols := firstn num acc; d_chars := chars |}
      | c :: r =>
          if (c =? 58)%N then Undef
          else
            let '(j, p, num) := if letter c then (c, r, S num) else (0%N, p, num) in
            let '(i, p, chars) :=
              match p with
              | x :: r => if (x =? 124)%N then (124%N, r, chars)
                          else if (x =? 61)%N then (61%N, r, S chars) else (32%N, p, chars)
              | [] => (32%N, p, chars)
              end in
            parse f p (acc ++ [(j, i)]) num chars
      end
  end.
(** rpg.c:272: the format is copied into an array of 100 *)
Definition justification (fuel : nat) (fmt : str) : res cdef :=
  if length fmt <? 100 then parse fuel fmt [] 0 0 else Undef.
Definition is_a (j : N) : bool := (j =? 97)%N.
(** rpg.c:858-869 [num_span_col]: of the columns after this one those that begin with 'a' *)
Fixpoint run (cols : list col) : nat :=
  match cols with (j, _) :: r => if is_a j then S (run r) else 0 | [] => 0 end.
(** rpg.c:743-754 [is_last_just_col] *)
Definition is_last (after : list col) : bool := run after =? length after.

(** ** The rows of a table *)
Record row := { r_def : cdef; r_vals : list str; r_before : list N; r_after : list N }.
(** rpg.c:976-982 [Desc_add_row_values]: the values of the columns; those of a column 'a' stay what they
    were, [old c r].  A value is copied into an array of 2000. *)
Fixpoint fill (old : nat -> nat -> str) (r c : nat) (cols : list col) (args : list str) : res (list str) :=
  match cols with
  | [] => Ok []
  | (j, _) :: more =>
      if negb (is_a j) then
        match args with
        | [] => Undef
        | v :: args => if length v <? 2000 then let* vs := fill old r (c + 1) more args in Ok (v :: vs) else Undef
        end
      else let* vs := fill old r (c + 1) more args in Ok (old c r :: vs)
  end.
(** The calls by which a table is made *)
Inductive op := Separation (c : N) (before : bool) | Row (fmt : str) (args : list str).
(** rpg.c:808-856 [Desc_add_row_separation], 945-985 [Desc_add_row_values]: [before] and [after] are the
    separations of the next row, [r] its number *)
Fixpoint build (fuel : nat) (old : nat -> nat -> str) (r : nat) (before after : list N) (ops : list op) : res (list row) :=
  match ops with
  | [] => Ok []
  | Separation c true :: ops => build fuel old r (before ++ [c]) after ops
  | Separation c false :: ops => build fuel old r before (after ++ [c]) ops
  | Row fmt args :: ops =>
      let* d := justification fuel fmt in
      let* vs := fill old r 0 (d_cols d) args in
      let* rows := build fuel old (r + 1) [] [] ops in
      Ok ({| r_def := d; r_vals := vs; r_before := before; r_after := after |} :: rows)
  end.

(** ** Sizes *)
Definition isupper (j : N) : bool := ((65 <=? j) && (j <=? 90))%N.
(** a text that goes on with "//" *)
Definition slashes (l : str) : bool := match l with a :: b :: _ => ((a =? 47) && (b =? 47))%N | _ => false end.
(** rpg.c:427-441, 470-484: the longest part of a value, [x] the length of the part so far; parts end at "//"
    (a blank after it is skipped) and, if [up], at a blank *)
Fixpoint measure (up : bool) (x m : nat) (l : str) : nat :=
  match l with
  | [] => Nat.max m x
  | c :: r =>
      if slashes l then
        match r with
        | _ :: ((b :: r'') as r') => if (b =? 32)%N then measure up 0 (Nat.max m x) r'' else measure up 0 (Nat.max m x) r'
        | _ => Nat.max m x
        end
      else if up && (c =? 32)%N then measure up 0 (Nat.max m x) r else measure up (S x) m r
  end.
(** max_col_sizes[number of columns][column] *)
Definition sizes := nat -> nat -> nat.
Definition put (sz : sizes) (n c v : nat) : sizes := fun n' c' => if (n' =? n) && (c' =? c) then v else sz n' c'.
(** rpg.c:422-443: the first pass over a row, from column [c] on; [n] is its number of columns *)
Fixpoint pass1 (n c : nat) (cols : list col) (vals : list str) (sz : sizes) : sizes :=
  match cols, vals with
  | (j, _) :: more, v :: vals =>
      let sz := if run more =? 0 then put sz n c (Nat.max (sz n c) (measure (isupper j) 0 0 v)) else sz in
      pass1 n (c + 1) more vals sz
  | _, _ => sz
  end.
(** F_ROUND(a / b, 0) for a natural number and a positive one *)
Definition rnd (a b : nat) : nat := (2 * a + b) / (2 * b).
(** rpg.c:486-492: the size of the [k + 1] columns from [c] on *)
Fixpoint span_size (pad n c k : nat) (sz : sizes) : nat :=
  match k with O => sz n c | S k => sz n c + 1 + pad * 2 + span_size pad n (c + 1) k sz end.
(** rpg.c:504-515 *)
Fixpoint distribute (num n c k siz span : nat) (sz : sizes) : sizes :=
  match k with
  | O => put sz n c (sz n c + (siz - span))
  | S k => let add := rnd (siz - span) num in distribute num n (c + 1) k siz (span + add) (put sz n c (sz n c + add))
  end.
(** rpg.c:463-519: the second pass over a row; [skip] columns belong to the span before *)
Fixpoint pass2 (pad n c skip : nat) (cols : list col) (vals : list str) (sz : sizes) : sizes :=
  match cols, vals with
  | (j, _) :: more, v :: vals =>
      match skip with
      | S skip => pass2 pad n (c + 1) skip more vals sz
      | O =>
          let k := run more in
          if k =? 0 then pass2 pad n (c + 1) 0 more vals sz
          else
            let siz := measure (isupper j) 0 0 v in
            let span := span_size pad n c k sz in
            let sz := if span <? siz then distribute (k + 1) n c k siz span sz else sz in
            pass2 pad n (c + 1) k more vals sz
      end
  | _, _ => sz
  end.
Definition num_col (r : row) : nat := length (d_cols (r_def r)).
(** rpg.c:417-421, 462 *)
Definition all_sizes (pad : nat) (rows : list row) : sizes :=
  let sz := fold_left (fun sz r => pass1 (num_col r) 0 (d_cols (r_def r)) (r_vals r) sz) rows (fun _ _ => 0) in
  fold_left (fun sz r => pass2 pad (num_col r) 0 0 (d_cols (r_def r)) (r_vals r) sz) rows sz.
Fixpoint total (pad n c k : nat) (sz : sizes) : nat :=
  match k with O => 0 | S k => sz n c + pad * 2 + total pad n (c + 1) k sz end.
(** rpg.c:542-549: min_just_width *)
Definition just_width (pad : nat) (sz : sizes) (d : cdef) : nat :=
  let n := length (d_cols d) in 2 + total pad n 0 n sz + d_chars d + n - 1.
(** rpg.c:536, 550-551 *)
Definition width (pad : nat) (sz : sizes) (rows : list row) : nat :=
  fold_left (fun w r => Nat.max w (just_width pad sz (r_def r))) rows 0.

(** ** The cells of a row *)
(** rpg.c:596-607: the [k] spanned columns from [c2] on; [m] is c + num_span_col + 1 *)
Fixpoint spanned (spread : nat -> nat -> nat -> nat) (pad : nat) (sz : sizes) (u n m c2 k add tw cw : nat) : nat * nat * nat :=
  match k with
  | O => (tw, cw, add)
  | S k =>
      let adj := spread u n m - add in
      spanned spread pad sz u n m (c2 + 1) k (add + adj) (tw + (sz n c2 + pad * 2 + 1)) (cw + (sz n c2 + pad * 2 + 1 + adj))
  end.
(** rpg.c:574-614: desc_column_text_size and desc_column_size; [u] is current_underage, [add] is current_add *)
Fixpoint cell_sizes (spread : nat -> nat -> nat -> nat) (pad : nat) (sz : sizes) (u n c add : nat) (cols : list col) : list (nat * nat) :=
  match cols with
  | [] => []
  | (j, _) :: more =>
      if negb (is_a j) then
        let m := c + run more + 1 in
        let '(adj, add) := match more with
                           | _ :: _ => let adj := spread u n m - add in (adj, add + adj)
                           | [] => (u - add, add)
                           end in
        let '(tw, cw, add) := spanned spread pad sz u n m (c + 1) (run more) add (sz n c) (pad * 2 + sz n c + adj) in
        (tw, cw) :: cell_sizes spread pad sz u n (c + 1) add more
      else (0, 0) :: cell_sizes spread pad sz u n (c + 1) add more
  end.

(** ** The text of a cell *)
(** rpg.c:322-323: where the first loop of get_next_string_value stops *)
Fixpoint stop (w : nat) (l : str) : nat :=
  match w, l with
  | O, _ => 0
  | _, [] => 0
  | S w, c :: r => if slashes l then 0 else S (stop w r)
  end.
(** rpg.c:328-331: back to a blank *)
Fixpoint back (l : str) (k : nat) : nat :=
  match k with O => 0 | S k' => if (nth k l 0 =? 32)%N then k else back l k' end.
(** rpg.c:314-338 [get_next_string_value]: what is printed, and what is left.  The array has 300 bytes.  The
    condition of line 326 is true whenever the text goes on. *)
Definition next_value (w : nat) (l : str) : res (str * str) :=
  let k := stop w l in
  if 300 <? k then Undef
  else
    let '(x, rest) :=
      if slashes (skipn k l) then (k, skipn (k + 2) l)
      else match skipn k l with
      | [] => (k, [])
      | _ => let i := back l k in (i, if (nth i l 0 =? 32)%N then skipn (i + 1) l else skipn i l)
      end in
    if 300 <=? x then Undef else Ok (firstn x l, rest).
Definition blanks (n : nat) : str := repeat 32%N n.
(** pad.c:86-109 [center] for a text that is not longer than [len] *)
Definition centered (s : str) (len : nat) : res str :=
  if 2000 <=? len then Exit
  else let ft := (len - length s) / 2 in Ok (blanks ft ++ s ++ blanks (len - (length s + ft))).
Definition undefined_space : str := map N_of_ascii (list_ascii_of_string "undefined inter column space") ++ [10%N].
(** rpg.c:658-692: the text of a cell in this line, and what is left for the next *)
Definition cell (j : N) (tw cw : nat) (l : str) : res (str * str) :=
  let a := (cw - tw) / 2 in
  let b := cw - tw - (cw - tw) / 2 in
  let around (s : str) : res str := if (300 <? a) || (300 <? b) then Undef else Ok (blanks a ++ s ++ blanks b) in
  match j with
  | 99%N | 67%N =>
      let* (s, rest) := next_value tw l in
      let* t := centered s tw in
      let* o := around t in Ok (o, rest)
  | 114%N | 82%N =>
      let* (s, rest) := next_value tw l in
      let* o := around (blanks (tw - length s) ++ s) in Ok (o, rest)
  | 108%N | 76%N =>
      let* (s, rest) := next_value tw l in
      let* o := around (s ++ blanks (tw - length s)) in Ok (o, rest)
  | _ => Ok (undefined_space, [])
  end.
(** rpg.c:693-703: the separator after the cell that begins with column [(j, i)] *)
Definition sep_at (this : col) (more : list col) : N := snd (nth (run more) (this :: more) (0, 0)%N).
Definition text_sep (this : col) (more : list col) : str :=
  if is_last more then []
  else let i := sep_at this more in if (i =? 61)%N then [124; 124]%N else [i].
(** rpg.c:657-705: one line of the values of a row *)
Fixpoint text_cells (cols : list col) (szs : list (nat * nat)) (ls : list str) : res (str * list str) :=
  match cols, szs, ls with
  | (j, i) :: cols, (tw, cw) :: szs, l :: ls =>
      if is_a j then let* (t, rs) := text_cells cols szs ls in Ok (t, [] :: rs)
      else
        let* (s, rest) := cell j tw cw l in
        let* (t, rs) := text_cells cols szs ls in
        Ok (s ++ text_sep (j, i) cols ++ t, rest :: rs)
  | _, _, _ => Ok ([], [])
  end.
Definition bar (s : str) : str := [124%N] ++ s ++ [124%N].
(** rpg.c:653-707 *)
Fixpoint text_lines (fuel : nat) (cols : list col) (szs : list (nat * nat)) (ls : list str) : res (list str) :=
  match fuel with
  | O => NoFuel
  | S f =>
      let* (s, rests) := text_cells cols szs ls in
      if existsb (fun l => negb (length l =? 0)) rests then
        let* more := text_lines f cols szs rests in Ok (bar s :: more)
      else Ok [bar s]
  end.
(** rpg.c:617-651: a separation before a row; [prev] are the columns of the row before, [c] the column *)
Definition rule_sep (p : N) (prev : option (list col)) (c : nat) (this : col) (more : list col) : str :=
  if is_last more then []
  else
    let cchr := sep_at this more in
    let twice (x : N) : str := if (cchr =? 61)%N then [x; x] else [x] in
    let lcchr := match prev with Some q => snd (nth (c + run more) q (0, 0)%N) | None => 0%N end in
    if negb (cchr =? 32)%N then
      if (p =? 32)%N then if (cchr =? 61)%N then [124; 124]%N else [cchr]
      else if ((cchr =? 124) || (cchr =? 61))%N && (p =? 45)%N
              && (match prev with Some _ => (lcchr =? 124) || (lcchr =? 61) | None => false end)%N
      then twice 43%N
      else twice p
    else twice p.
Fixpoint rule_cells (p : N) (prev : option (list col)) (c : nat) (cols : list col) (szs : list (nat * nat)) : str :=
  match cols, szs with
  | (j, i) :: cols, (_, cw) :: szs =>
      (if is_a j then [] else repeat p cw ++ rule_sep p prev c (j, i) cols) ++ rule_cells p prev (c + 1) cols szs
  | _, _ => []
  end.
(** rpg.c:708-732: a separation after a row *)
Definition after_sep (p : N) (prev : option (list col)) (c : nat) (this : col) (more : list col) : str :=
  if is_last more then []
  else
    let i := sep_at this more in
    if negb (i =? 32)%N then
      if (p =? 32)%N then [i]
      else if (snd this =? 124)%N && (p =? 45)%N
              && (match prev with Some q => snd (nth (c + run more) q (0, 0)%N) =? 124 | None => false end)%N
      then [43%N]
      else [p]
    else [p].
Fixpoint after_cells (p : N) (prev : option (list col)) (c : nat) (cols : list col) (szs : list (nat * nat)) : str :=
  match cols, szs with
  | (j, i) :: cols, (_, cw) :: szs =>
      (if is_a j then [] else repeat p cw ++ after_sep p prev c (j, i) cols) ++ after_cells p prev (c + 1) cols szs
  | _, _ => []
  end.
(** rpg.c:559-732: the lines of a row *)
Definition row_lines (spread : nat -> nat -> nat -> nat) (pad : nat) (sz : sizes) (w : nat) (prev : option (list col)) (r : row) : res (list str) :=
  let cols := d_cols (r_def r) in
  let szs := cell_sizes spread pad sz (w - just_width pad sz (r_def r)) (length cols) 0 0 cols in
  let* ts := text_lines (S (length (concat (r_vals r)))) cols szs (r_vals r) in
  Ok (map (fun p => bar (rule_cells p prev 0 cols szs)) (r_before r) ++ ts
      ++ map (fun p => bar (after_cells p prev 0 cols szs)) (r_after r)).
Fixpoint rows_lines (spread : nat -> nat -> nat -> nat) (pad : nat) (sz : sizes) (w : nat) (prev : option (list col)) (rows : list row) : res (list str) :=
  match rows with
  | [] => Ok []
  | r :: rows =>
      let* ls := row_lines spread pad sz w prev r in
      let* more := rows_lines spread pad sz w (Some (d_cols (r_def r))) rows in
      Ok (ls ++ more)
  end.
(** rpg.c:555-556, 734-735, 790-806: the first and the last line; [page] is the width of the page if the
    table is to be centred on it *)
Definition edge (a b : N) (w : nat) : str := [a] ++ repeat 45%N (w - 2) ++ [b].
Definition indent (page : option nat) (w : nat) (l : str) : str :=
  match page with Some pw => if w <? pw then blanks ((pw - w) / 2) ++ l else l | None => l end.
(** rpg.c:348-741 [Desc_dump_report] *)
Definition report (spread : nat -> nat -> nat -> nat) (pad : nat) (page : option nat) (rows : list row) : res (list str) :=
  let sz := all_sizes pad rows in
  let w := width pad sz rows in
  let* ls := rows_lines spread pad sz w None rows in
  Ok (map (indent page w) ([edge 44 46 w] ++ ls ++ [edge 96 39 w])).
(** a table from the calls that make it *)
Definition table (spread : nat -> nat -> nat -> nat) (pad : nat) (page : option nat) (old : nat -> nat -> str) (ops : list op) : res (list str) :=
  let* rows := build 101 old 0 [] [] ops in report spread pad page rows.
