(** Model of the reports of the significance tests of sc_stats that are printed as text: the report of each system
    and the matrix of one test, /repo/src/sclite/rank.c, and the matrix of the matched pairs test,
    /repo/src/sclite/mtchprs.c.

    What is simplified: a report is the list of its lines, [text] puts them together.  Every file can be
    opened for writing (otherwise the report goes to the standard output, rank.c:665-668).  The names of the
    systems are a list, so their number is its length. *)
From Coq Require Import String List ZArith NArith Arith Bool QArith.
From Verif Require Import Base Store_Model.
Import ListNotations.
Local Open Scope res_scope.
Local Open Scope Z_scope.

Definition blanks (n : nat) : str := repeat 32%N n.
Definition slen (s : str) : Z := Z.of_nat (length s).
(** pad.c:86-109 [center], with its result as a string; the array and its contents are in [Pad_Model.center]. *)
Definition centre (s : str) (len : Z) : res str :=
  if 2000 <=? len then Exit
  else if 2000 <=? slen s then Undef
  else
    let ft := Z.quot (len - slen s) 2 in
    let bk := len - (slen s + ft) in
    Ok (blanks (Z.to_nat ft) ++ s ++ blanks (Z.to_nat bk)).
(** the conversion "%<n>s" *)
Definition right (n : Z) (s : str) : str := blanks (Z.to_nat (n - slen s)) ++ s.
(** rank.c:638-640, 642-649, 748-750, mtchprs.c:754-756: if ((i = strlen(s)) > m) m = i *)
Definition longest (m : Z) (l : list str) : Z := fold_left (fun m s => if m <? slen s then slen s else m) l m.
Fixpoint each {A B} (f : A -> res B) (l : list A) : res (list B) :=
  match l with
  | [] => Ok []
  | x :: r => let* y := f x in let* ys := each f r in Ok (y :: ys)
  end.
Definition text (lines : list str) : str := flat_map (fun l => l ++ [10%N]) lines.

(** The results of a test: win_str (and win_ids), win_desc, wins, conf. *)
Record test := { t_id : str; t_desc : str; t_win : nat -> nat -> Z; t_conf : nat -> nat -> Q }.
(** rank.c:692-697, 793-798: NO_DIFF is 0 (statdist.h:18) *)
Definition verdict (w : Z) (a b : str) : str := if w =? 0 then bytes "same" else if w <? 0 then a else b.
Definition numbered (names : list str) : list (nat * str) := combine (seq 0 (length names)) names.

(** ** The report of a system: [print_n_winner_comp_report], rank.c:630-736 *)
(** rank.c:651 sysname_fmt *)
Definition wide (m : Z) (s : str) : str := [32%N] ++ right m s ++ [32%N].
Definition dashes (n : Z) : str := repeat 45%N (Z.to_nat n).
(** rank.c:684-700 *)
Definition sts_row (m : Z) (tests : list test) (me other : nat * str) : res str :=
  let '(i, a) := me in
  let '(j, b) := other in
  let* cs := each (fun t =>
      let* c := centre (if Nat.ltb i j then verdict (t_win t i j) a b else verdict (t_win t j i) b a) m in Ok (wide m c)) tests in
  Ok (wide m b ++ concat cs).
(** rank.c:702-713: the legend; [w] is pr_width, [d] max_desc_len, [s] max_str_len *)
Definition sts_legend (w d s : Z) (tests : list test) : res (list str) :=
  let row (x y : str) : res str :=
    let* ind := centre [] (Z.quot (w - (d + 5 + s)) 2) in
    let* a := centre x d in
    let* g := centre [] 5 in
    let* b := centre y s in Ok (ind ++ a ++ g ++ b) in
  let* h := row (bytes "Test Name") (bytes "Abbrev.") in
  let* ind := centre [] (Z.quot (w - (d + 5 + s)) 2) in
  let* g := centre [] 5 in
  let* rows := each (fun t => row (t_desc t) (t_id t)) tests in
  Ok (h :: (ind ++ dashes d ++ g ++ dashes s) :: rows).
(** rank.c:653, 675 *)
Definition for_the (testname : str) : str := bytes "for the " ++ testname ++ bytes " Test with other Systems:".
Definition notes : list str :=
  [ []; bytes "Note: System ID with lower error rate is printed if the Null";
    bytes "      Hypothesis is rejected at the 95% Confidence Level,"; bytes "      if not, 'same' is printed." ].
(** rank.c:641-655: max_win_ids_len is not used *)
Definition sts_width (testname : str) (names : list str) (tests : list test) : Z :=
  let m := longest 0 names in
  let w := (m + 2) * (Z.of_nat (length tests) + 1) in
  Z.max (Z.max w (slen (for_the testname))) (longest 0 (map t_desc tests) + 5 + longest 7 (map t_id tests)).
(** rank.c:669-726: the lines of the report of the system [me]; title_line has 200 bytes *)
Definition sts_lines (testname : str) (names : list str) (tests : list test) (me : nat * str) : res (list str) :=
  let m := longest 0 names in
  let w := sts_width testname names tests in
  let* l1 := centre (bytes "Summary of Statistical Significance Tests:") w in
  let* l2 := centre (bytes "Comparing the System") w in
  if 200 <=? slen (snd me) then Undef else
  let* l3 := centre (snd me) w in
  let* l4 := centre (for_the testname) w in
  let* ids := each (fun t => let* c := centre (t_id t) m in Ok (wide m c)) tests in
  let* rows := each (sts_row m tests me) (filter (fun o => negb (Nat.eqb (fst me) (fst o))) (numbered names)) in
  let* leg := sts_legend w (longest 0 (map t_desc tests)) (longest 7 (map t_id tests)) tests in
  Ok ([l1; l2; l3; l4; []] ++ [wide m [] ++ concat ids]
      ++ [wide m [] ++ concat (map (fun _ => [32%N] ++ dashes m ++ [32%N]) tests)]
      ++ rows ++ [[]; []; []] ++ leg ++ notes).
(** strrchr(s, '/') *)
Fixpoint strrchr (s : str) : option str :=
  match s with
  | [] => None
  | c :: r => match strrchr r with Some t => Some t | None => if (c =? 47)%N then Some s else None end
  end.
(** rank.c:659-663 *)
Definition sts_name (outdir name : str) : str :=
  match outdir with
  | [] => name ++ bytes ".sts"
  | _ => outdir ++ [47%N] ++ (match strrchr name with Some t => t | None => name end) ++ bytes ".sts"
  end.
(** rank.c:653, 658-735: the files in the order in which they are written; fname has 200 bytes *)
Definition sts (outdir testname : str) (names : list str) (tests : list test) : res (list (str * str)) :=
  if 200 <=? slen (for_the testname) then Undef
  else each (fun me =>
      let f := sts_name outdir (snd me) in
      if 200 <=? slen f then Undef
      else let* ls := sts_lines testname names tests me in Ok (f, text ls)) (numbered names).

(** ** The matrix of one test: [print_trt_comp_matrix_for_RANK_one_winner], rank.c:741-808 *)
(** rank.c:751 sysname_fmt *)
Definition boxed (m : Z) (s : str) : str := [32%N] ++ right m s ++ [32; 124]%N.
Definition matrix (title formula block : str) (names : list str) (win : nat -> nat -> Z) : res (list str) :=
  let m := longest 0 names in
  let n := Z.of_nat (length names) in
  let per := 3 + m in
  let* l1 := centre title 79 in
  let by_what := bytes "Using the " ++ formula ++ bytes " Percentage per " ++ block in
  if 200 <=? slen by_what then Undef else
  let* l2 := centre by_what 79 in
  let* l3 := centre (bytes "as the Comparison Metric") 79 in
  let* ind := centre [] (Z.quot (79 - ((n + 1) * per + 1)) 2) in
  let line := ind ++ [124%N] ++ dashes (per * (n + 1) - 1) ++ [124%N] in
  let spacer := ind ++ [124%N] ++ concat (map (fun _ => dashes (per - 1) ++ [43%N]) names) ++ dashes (per - 1) ++ [124%N] in
  let row (me : nat * str) : list str :=
    let '(i, a) := me in
    [spacer; ind ++ [124%N] ++ boxed m a
             ++ flat_map (fun o => boxed m (if Nat.leb (fst o) i then [] else verdict (win i (fst o)) a (snd o))) (numbered names)] in
  Ok ([l1; l2; l3; []; line; ind ++ [124%N] ++ boxed m [] ++ flat_map (boxed m) names]
      ++ flat_map row (numbered names) ++ [line]).

(** ** The matrix of the matched pairs test: [print_compare_matrix_for_sys], mtchprs.c:740-834 *)
(** What [set_pad] and [set_pad_cent_n] leave for a text of [l] bytes, pad.c:44-80, with the line width 80 and
    FULL_SCREEN 132; the array and its contents are in [Pad_Model.set_pad]. *)
Definition pad_for (l : Z) : str := blanks (Z.to_nat (Z.min ((80 - l) / 2) 131 - 1)).
(** The end of an array of 49 equal bytes: spaces + 49 - MIN(49, n); before 0 this points past the array. *)
Definition some (c : N) (n : Z) : res str := if n <? 0 then Undef else Ok (repeat c (Z.to_nat (Z.min 49 n))).
(** mtchprs.c:803-808: TEST_DIFF is 1 *)
Definition pair_verdict (w : Z) (a b : str) : str := if w =? 1 then b else if w =? 0 then bytes "same" else a.
(** mtchprs.c:800-814; block_size - 1 - strlen(name) is unsigned, its half is converted to int *)
Definition pair_cell (block : Z) (off : bool) (name : str) : res str :=
  let t := if off then 0 else (block - 1 - slen name) / 2 in
  let* a := some 32 t in
  let* b := some 32 (block - 1 - slen name - t) in
  Ok (a ++ name ++ b ++ [124%N]).
Definition pair_matrix (matrix_name v_desc tname good : str) (names : list str) (win : nat -> nat -> Z) : res (list str) :=
  let m := longest 0 names in
  let n := Z.of_nat (length names) in
  let block := 3 + m in
  let titled (s : str) : list str := match s with [] => [] | _ => [pad_for (slen s) ++ s] end in
  let pad := pad_for ((n + 1) * block) in
  let* h1 := some 45 (block - 1) in
  let* h := some 45 block in
  let* s1 := some 32 (block - 1) in
  let line := pad ++ [124%N] ++ h1 ++ concat (map (fun _ => h) names) ++ [124%N] in
  let spacer := pad ++ [124%N] ++ h1 ++ concat (map (fun _ => 43%N :: h1) names) ++ [124%N] in
  let* rows := each (fun me => let '(i, a) := me in
      let* cs := each (fun o => if Nat.leb (fst o) i then pair_cell block true []
                                else pair_cell block false (pair_verdict (win i (fst o)) a (snd o))) (numbered names) in
      Ok [spacer; pad ++ [124%N] ++ boxed m a ++ concat cs]) (numbered names) in
  Ok ([[]; []; []; pad_for (slen matrix_name) ++ matrix_name] ++ titled v_desc ++ titled tname
      ++ [pad_for (slen (bytes "Minimum Number of Correct Boundary words") + 2)
            ++ bytes "Minimum Number of Correct Boundary words " ++ good; []; []]
      ++ [line; pad ++ [124%N] ++ s1 ++ [124%N] ++ flat_map (boxed m) names] ++ concat rows ++ [line]).
