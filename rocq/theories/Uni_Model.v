(** Model of the reports of sc_stats that are made as tables: the unified report of all significance tests,
    /repo/src/sclite/rank.c:433-628, and the matrix of the McNemar test, /repo/src/sclite/sentmcn.c:272-333, with the rows that
    are made value by value, /repo/src/sclite/rpg.c:871-940.  The calls are those of [Rpg_Model].

    What is simplified: probabilities are rational numbers, and "%.3f" rounds them exactly.  The report is the
    first with more than 50 columns (max_col never shrinks).  The file can be opened.  The numbers corr_arr
    (sentmcn.c:275-286) are computed and not used. *)
From Coq Require Import String List ZArith NArith Arith Bool QArith.
From Verif Require Import Base Store_Model Sgml_Model Rpg_Model Sig_Model.
Import ListNotations.
Local Open Scope res_scope.
Local Open Scope nat_scope.

(** ** Probabilities *)
(** the doubles 0.001, 0.01 and 0.05 *)
Definition p001 : Q := 1152921504606847 # 1152921504606846976.
Definition p01 : Q := 5764607523034235 # 576460752303423488.
Definition p05 : Q := 3602879701896397 # 72057594037927936.
Definition qlt (p q : Q) : bool := negb (Qle_bool q p).
(** the number of thousandths "%.3f" shows: the nearest, and the even one of two *)
Definition thousandths (q : Q) : Z :=
  let n := (Qnum q * 1000)%Z in
  let d := Zpos (Qden q) in
  let f := (n / d)%Z in
  let r := (n mod d)%Z in
  if (2 * r <? d)%Z then f else if (d <? 2 * r)%Z then (f + 1)%Z else if Z.even f then f else (f + 1)%Z.
Definition f3 (q : Q) : str := fixed 3 (thousandths q).

(** ** Rows made value by value *)
(** rpg.c:86, 119-141, 274-275, 302-303: how many columns there is room for after a format of [n] columns *)
Definition room (n : nat) : nat := if n <=? 50 then 50 else 75.
(** rpg.c:876-894 [setup_iterations], 897-903, 905-915: a format, its values and the end of the row; [r] is
    max_col *)
Definition iterated (r : nat) (fmt : str) (vals : list str) : res op :=
  if 60 <? r then Exit
  else if 60 <? length vals then Exit
  else if existsb (fun v => 2000 <=? length v) vals then Undef
  else Ok (Row fmt vals).

(** ** The unified report *)
Fixpoint times (n : nat) (s : str) : str := match n with O => [] | S n => s ++ times n s end.
(** rank.c:464-475 *)
Definition title_fmt (n : nat) : str := bytes "c=c" ++ times n (bytes "|caa") ++ bytes "=c".
Definition row_fmt (n : nat) : str := bytes "c=c" ++ times n (bytes "|rrl") ++ bytes "=c".
Definition header_fmt (n : nat) : str := bytes "ca" ++ times n (bytes "aaa") ++ bytes "a".
(** rank.c:485-487, 504-507: in an array of 100 *)
Definition legend_line (d s : Z) (x y : str) : res str :=
  let* a := centre x d in
  let* g := centre [] 5 in
  let* b := centre y s in
  let l := a ++ g ++ b in
  if 100 <=? length l then Undef else Ok l.
(** rank.c:491-496 *)
Definition legend_dashes (d s : Z) : res str :=
  let* g := centre [] 5 in
  let l := dashes d ++ g ++ dashes s in
  if 100 <=? length l then Undef else Ok l.
(** rank.c:537-556: the three values of two systems *)
Definition winner (w : Z) (a b : str) : str := if (w =? 0)%Z then bytes "~" else if (w <? 0)%Z then a else b.
Definition p_text (q : Q) : str := if qlt q p001 then bytes "<0.001" else f3 q.
Definition stars (q : Q) : str :=
  if Qle_bool q p001 then bytes "***" else if Qle_bool q p01 then bytes "**" else if Qle_bool q p05 then bytes "*" else [].
Definition cells (t : test) (me other : nat * str) : list str :=
  let '(i, a) := me in
  let '(j, b) := other in
  if j <=? i then [[]; []; []]
  else [winner (t_win t i j) a b; p_text (t_conf t i j); stars (t_conf t i j)].
(** rank.c:526-560: the row of a system and a test *)
Definition values (names : list str) (me : nat * str) (kt : nat * test) : list str :=
  [t_id (snd kt); if fst kt =? 0 then snd me else []]
  ++ flat_map (cells (snd kt) me) (numbered names) ++ [t_id (snd kt)].
Definition indexed {A} (l : list A) : list (nat * A) := combine (seq 0 (length l)) l.
(** rank.c:524-562 *)
Definition system_rows (n r : nat) (names : list str) (tests : list test) (me : nat * str) : res (list op) :=
  let* rows := each (fun kt => iterated r (row_fmt n) (values names me kt)) (indexed tests) in
  Ok (Separation 45%N true :: rows).
(** rank.c:498-509 *)
Definition legend_rows (n : nat) (d s : Z) (tests : list test) : res (list op) :=
  let* rows := each (fun kt =>
      let* l := legend_line d s (t_desc (snd kt)) (t_id (snd kt)) in
      Ok ((if fst kt =? length tests - 1 then [Separation 32%N false; Separation 32%N false] else []) ++ [Row (header_fmt n) [l]]))
      (indexed tests) in
  Ok (concat rows).
(** rank.c:573-618 *)
Definition remarks : list str :=
  [ bytes "These significance tests are all two-tailed tests with the null hypothesis";
    bytes "that there is no performance difference between the two systems.          ";
    bytes "                                                                          ";
    bytes "The first column indicates if the test finds a significant difference     ";
    bytes "at the level of p=0.05.  It consists of '~' if no difference is           ";
    bytes "found at this significance level.  If a difference at this level is       ";
    bytes "found, this column indicates the system with the higher value on the      ";
    bytes "performance statistic utilized by the particular test.                    ";
    bytes "                                                                          ";
    bytes "The second column specifies the minimum value of p for which the test     ";
    bytes "finds a significant difference at the level of p.                         ";
    bytes "                                                                          ";
    bytes "The third column indicates if the test finds a significant difference     ";
    bytes "at the level of p=0.001 (""***""), at the level of p=0.01, but not          ";
    bytes "p=0.001 (""**""), or at the level of p=0.05, but not p=0.01 (""*"").          ";
    bytes "                                                                          ";
    bytes "A test finds significance at level p if, assuming the null hypothesis,    ";
    bytes "the probability of the test statistic having a value at least as          ";
    bytes "extreme as that actually found, is no more than p.                        " ].
(** rank.c:433-622: the calls.  The three formats are in arrays of 100; the legend is as wide as the longest
    description and abbreviation, at least 9 and 7. *)
Definition unified_ops (testname : str) (names : list str) (tests : list test) : res (list op) :=
  let n := length names in
  let d := Sig_Model.longest 9 (map t_desc tests) in
  let s := Sig_Model.longest 7 (map t_id tests) in
  if 100 <=? length (title_fmt n) then Undef
  else
    let r := room (3 * n + 3) in
    let head := [Row (header_fmt n) [bytes "Composite Report of All Significance Tests"];
                 Row (header_fmt n) [bytes "For the " ++ testname ++ bytes " Test"]; Separation 32%N true] in
    let* h := legend_line d s (bytes "Test Name") (bytes "Abbrev.") in
    let* g := legend_dashes d s in
    let* legend := legend_rows n d s tests in
    let* title := iterated r (title_fmt n) ([bytes "Test//Abbrev."; []] ++ names ++ [bytes "Test//Abbrev."]) in
    let* body := each (system_rows n r names tests) (numbered names) in
    Ok (head ++ [Row (header_fmt n) [h]; Row (header_fmt n) [g]] ++ legend ++ [Separation 45%N true; title]
        ++ concat body ++ [Separation 45%N true] ++ map (fun l => Row (header_fmt n) [l]) remarks).
(** rank.c:478, 620: the page has 80 columns (sc_stats.c:218) *)
Definition unified (spread : nat -> nat -> nat -> nat) (old : nat -> nat -> str) (testname : str) (names : list str) (tests : list test) : res (list str) :=
  let* ops := unified_ops testname names tests in
  table spread 1 (Some 80) old ops.

(** ** The matrix of the McNemar test *)
(** sentmcn.c:288-289: in an array of 50 *)
Definition mcn_fmt (n : nat) : str := bytes "c" ++ times n (bytes "|c").
(** sentmcn.c:307-313 *)
Definition mcn_conf (names : list str) (conf : nat -> nat -> Q) (me : nat * str) : list str :=
  snd me :: map (fun o => if fst me <? fst o
                          then bytes "Conf=(" ++ f3 (let q := conf (fst me) (fst o) in if qlt q p001 then p001 else q) ++ bytes ")"
                          else []) (numbered names).
(** sentmcn.c:316-328: TEST_DIFF is 1 (statdist.h) *)
Definition mcn_better (names : list str) (win : nat -> nat -> Z) (me : nat * str) : list str :=
  [] :: map (fun o => if fst me <? fst o
                      then let w := win (fst me) (fst o) in
                           if (w =? 1)%Z then snd o else if (w =? 0)%Z then bytes "same" else snd me
                      else []) (numbered names).
(** sentmcn.c:303-330 *)
Definition mcn_rows (n : nat) (names : list str) (win : nat -> nat -> Z) (conf : nat -> nat -> Q) (me : nat * str) : res (list op) :=
  let* a := iterated (room (n + 1)) (mcn_fmt n) (mcn_conf names conf me) in
  let* b := iterated (room (n + 1)) (mcn_fmt n) (mcn_better names win me) in
  Ok [Separation 45%N true; a; b].
(** sentmcn.c:291-330 *)
Definition mcn_ops (matrix_name tname : str) (names : list str) (win : nat -> nat -> Z) (conf : nat -> nat -> Q) : res (list op) :=
  let n := length names in
  if 50 <=? length (mcn_fmt n) then Undef
  else
    let* title := iterated (room (n + 1)) (mcn_fmt n) ([] :: names) in
    let* body := each (mcn_rows n names win conf) (numbered names) in
    Ok ([Row (bytes "c") [matrix_name]; Separation 32%N false; Separation 45%N false; Row (bytes "c") [tname]; title] ++ concat body).
(** sentmcn.c:292, 331; SCREEN_WIDTH is 80 *)
Definition mcn_matrix (spread : nat -> nat -> nat -> nat) (old : nat -> nat -> str) (matrix_name tname : str) (names : list str) (win : nat -> nat -> Z) (conf : nat -> nat -> Q) : res (list str) :=
  let* ops := mcn_ops matrix_name tname names win conf in
  table spread 1 (Some 80) old ops.
