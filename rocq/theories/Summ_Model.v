(** The score reports of sclite by speaker and by system: /repo/src/sclite/scores.c
    [print_system_summary], [print_N_system_summary], [print_N_system_executive_summary] and the
    statistics of /repo/src/sclite/statdist.c.

    Doubles are exact fractions; the standard deviation is given by its square, the variance.  Counters
    are unbounded.  The confidence column (NCE), the layout and the texts of the reports are not
    modelled. *)
From Coq Require Import List ZArith QArith Arith Bool.
From Verif Require Import Base Order_Model.
Import ListNotations.
Local Open Scope res_scope.
Local Open Scope nat_scope.

Definition nq (n : nat) : Q := inject_Z (Z.of_nat n).

(** ** statdist.c: mean, variance and median *)
Record stat := { s_mean : Q; s_var : Q; s_median : Q }.
Definition zero_stat : stat := {| s_mean := 0; s_var := 0; s_median := 0 |}.
(** statdist.c:599-601, 640-642: the sum *)
Definition total (l : list Q) : Q := fold_left (fun t x => (t + x)%Q) l 0%Q.
(** statdist.c:614-616, 659-661: the sum of the squared deviations *)
Definition squares (l : list Q) (mean : Q) : Q := fold_left (fun t x => (t + (x - mean) * (x - mean))%Q) l 0%Q.
(** statdist.c:618-624, 663-669; the number of values is not 1 where it divides, since then the only
    deviation is 0 *)
Definition variance (l : list Q) (mean : Q) : Q :=
  let tmp := squares l mean in
  if Qeq_bool tmp 0 then 0%Q else (tmp / (nq (length l) - 1))%Q.
(** order.c:56-59 [qsort_double_cmp] *)
Definition q_sign (a b : Q) : Z := match (a ?= b)%Q with Lt => (-1)%Z | Gt => 1%Z | Eq => 0%Z end.
Definition q_cmp (arr : list Q) (p p1 : nat) : Z := q_sign (nth p arr 0%Q) (nth p1 arr 0%Q).

Section Statistics.
(** qsort of the C library *)
Variable qsort : (nat -> nat -> Z) -> list nat -> list nat.

(** statdist.c:650-655: the median by the sorted indices *)
Definition median_double (l : list Q) : res Q :=
  let ptr := qsort (q_cmp l) (seq 0 (length l)) in
  let h := length l / 2 in
  if length l mod 2 =? 0 then
    let* p := get ptr h in
    let* x := get l p in
    let* p1 := (if h =? 0 then Undef else get ptr (h - 1)) in
    let* y := get l p1 in
    Ok ((x + y) / 2)%Q
  else
    let* p := get ptr h in get l p.
(** statdist.c:630-671 [calc_mean_var_std_dev_Zstat_double]; the Z statistic is in Mapsswe_Model *)
Definition calc_double (l : list Q) : res stat :=
  match l with
  | [] => Ok zero_stat
  | [x] => let mean := (total l / nq (length l))%Q in
           Ok {| s_mean := mean; s_var := variance l mean; s_median := x |}
  | _ => let mean := (total l / nq (length l))%Q in
         let* m := median_double l in
         Ok {| s_mean := mean; s_var := variance l mean; s_median := m |}
  end.
(** statdist.c:603-612: the median of ints; the sum of the two in the middle is an int *)
Definition in_int (z : Z) : bool := ((- 2 ^ 31 <=? z) && (z <? 2 ^ 31))%Z.
Definition median_int (l : list Z) : res Q :=
  let ptr := sort_int_arr qsort l Increasing in
  let h := length l / 2 in
  if length l mod 2 =? 0 then
    let* p := get ptr h in
    let* x := get l p in
    let* p1 := (if h =? 0 then Undef else get ptr (h - 1)) in
    let* y := get l p1 in
    if in_int (x + y) then Ok (inject_Z (x + y) / 2)%Q else Undef
  else
    let* p := get ptr h in
    let* x := get l p in
    Ok (inject_Z x).
(** statdist.c:594-626 [calc_mean_var_std_dev_Zstat]; the mean of no values is 0/0, but there the median
    is undefined *)
Definition calc_int (l : list Z) : res stat :=
  let* m := median_int l in
  let q := map inject_Z l in
  let mean := (total q / nq (length q))%Q in
  Ok {| s_mean := mean; s_var := variance q mean; s_median := m |}.

(** ** The report of one system *)
(** sctk.h:84-106 [GRP] *)
Record grp := { g_corr : nat; g_sub : nat; g_ins : nat; g_del : nat; g_mrg : nat; g_spl : nat;
                w_ref : Q; w_corr : Q; w_sub : Q; w_ins : Q; w_del : Q; w_mrg : Q; w_spl : Q;
                g_nsent : nat; g_serr : nat }.
(** sctk.h:45 [pct] *)
Definition pct (num dem : Q) : Q := if Qeq_bool dem 0 then 0%Q else (num / dem * 100)%Q.
(** the columns of word scores of a report *)
Inductive col := Corr | Sub | Del | Ins | Mrg | Spl | Err.
(** the columns by their titles, scores.c:1241-1260 *)
Definition titles (do_sm : bool) : list col :=
  if do_sm then [Corr; Sub; Del; Ins; Mrg; Spl; Err] else [Corr; Sub; Del; Ins; Err].

(** the counters of a column, scores.c:1134-1163 *)
Definition counted (g : grp) (c : col) : nat :=
  match c with
  | Corr => g_corr g | Sub => g_sub g | Del => g_del g | Ins => g_ins g | Mrg => g_mrg g | Spl => g_spl g
  | Err => g_sub g + g_ins g + g_del g + g_mrg g + g_spl g
  end.
Definition weighed (g : grp) (c : col) : Q :=
  match c with
  | Corr => w_corr g | Sub => w_sub g | Del => w_del g | Ins => w_ins g | Mrg => w_mrg g | Spl => w_spl g
  | Err => w_sub g + w_ins g + w_del g + w_mrg g + w_spl g
  end%Q.
(** scores.c:1126-1131 *)
Definition trefs (weighted : bool) (g : grp) : Q :=
  if weighted then w_ref g else nq (g_sub g + g_corr g + g_del g + g_mrg g + g_spl g).
(** scores.c:1133-1163: [corr_arr], ..., [err_arr] at a speaker *)
Definition value (raw weighted : bool) (g : grp) (c : col) : Q :=
  if raw || Qeq_bool (trefs weighted g) 0 then nq (counted g c)
  else pct (if weighted then weighed g c else nq (counted g c)) (trefs weighted g).
(** scores.c:1165-1168 [serr_arr] *)
Definition serr_value (raw : bool) (g : grp) : Q :=
  if raw then nq (g_serr g) else pct (nq (g_serr g)) (nq (g_nsent g)).
(** scores.c:1171-1172 [word_num_arr] *)
Definition word_num (g : grp) : nat := g_corr g + g_sub g + g_del g.

(** a double added to an int: the sum is cut to an int.  That it may be outside the ints is not
    modelled. *)
Definition trunc (x : Q) : Z := Z.quot (Qnum x) (Zpos (Qden x)).
Definition add_int (t : Z) (x : Q) : Z := trunc (inject_Z t + x).
(** scores.c:1174-1180: the total of a column; the total of errors is the sum of the others,
    scores.c:1359-1361, 1373-1375 *)
Definition amount (weighted : bool) (g : grp) (c : col) : Q := if weighted then weighed g c else nq (counted g c).
Definition tot (weighted : bool) (gs : list grp) (c : col) : Z :=
  fold_left (fun t g => add_int t (amount weighted g c)) gs 0%Z.
Definition tot_col (weighted : bool) (gs : list grp) (c : col) : Z :=
  match c with
  | Err => tot weighted gs Sub + tot weighted gs Ins + tot weighted gs Del + tot weighted gs Spl + tot weighted gs Mrg
  | _ => tot weighted gs c
  end%Z.
Definition tot_ref (weighted : bool) (gs : list grp) : Z := fold_left (fun t g => add_int t (trefs weighted g)) gs 0%Z.
(** scores.c:1181-1184 *)
Definition sum_nat (f : grp -> nat) (gs : list grp) : nat := fold_left (fun t g => t + f g) gs 0.

(** one line of the report: sentences, words, the scores in the order of the columns, sentence errors;
    [l_star] marks a line of counters where the report has percentages *)
Record line := { l_snt : nat; l_wrd : nat; l_cells : list Q; l_serr : Q; l_star : bool }.
(** scores.c:1262-1325: the line of a speaker *)
Definition row (do_sm : bool) : list col := if do_sm then [Corr; Sub; Del; Ins; Mrg; Spl; Err] else [Corr; Sub; Del; Ins; Err].
Definition no_words (raw : bool) (g : grp) : bool := negb ((Nat.ltb 0 (word_num g) && negb raw) || raw).
Definition speaker_line (do_sm raw weighted : bool) (g : grp) : line :=
  {| l_snt := g_nsent g; l_wrd := word_num g; l_cells := map (value raw weighted g) (row do_sm);
     l_serr := serr_value raw g; l_star := no_words raw g |}.
(** scores.c:1340-1380: the line of the sums *)
Definition sum_line (do_sm raw weighted : bool) (gs : list grp) : line :=
  {| l_snt := sum_nat g_nsent gs; l_wrd := sum_nat word_num gs;
     l_cells := map (fun c => if raw then inject_Z (tot_col weighted gs c)
                              else pct (inject_Z (tot_col weighted gs c)) (inject_Z (tot_ref weighted gs))) (row do_sm);
     l_serr := if raw then nq (sum_nat g_serr gs) else pct (nq (sum_nat g_serr gs)) (nq (sum_nat g_nsent gs));
     l_star := false |}.

(** scores.c:1389-1395: the values from [i] on move one place up, [k] times *)
Fixpoint move_up (k i : nat) (arr : list Q) : res (list Q) :=
  match k with
  | O => Ok arr
  | S k' => let* x := get arr (i + 1) in
            let* arr := set arr i x in
            move_up k' (i + 1) arr
  end.
(** scores.c:1384-1403: the loop over the speakers, for one array *)
Fixpoint drop_zero (wn : list nat) (spkr num : nat) (arr : list Q) : res (list Q) :=
  match wn with
  | [] => Ok arr
  | w :: r =>
      let* arr := (if w =? 0 then
                     let* arr := move_up (num - 1 - spkr) spkr arr in
                     set arr (num - 1) (-1000 # 1)%Q
                   else Ok arr) in
      drop_zero r (spkr + 1) num arr
  end.
(** the arrays of splits and merges are not moved *)
Definition moved (c : col) : bool := match c with Mrg | Spl => false | _ => true end.

(** the lines Mean, S.D. and Median: sentences, words, scores, sentence errors *)
Record stats := { t_snt : stat; t_wrd : stat; t_cells : list stat; t_serr : stat; t_plus : bool }.
(** the order of the columns in these lines, scores.c:1448-1456, 1479-1487, 1509-1517 *)
Definition stat_row (do_sm : bool) : list col :=
  if do_sm then [Corr; Sub; Del; Ins; Spl; Mrg; Err] else [Corr; Sub; Del; Ins; Err].
Fixpoint map_res {A B} (f : A -> res B) (l : list A) : res (list B) :=
  match l with
  | [] => Ok []
  | x :: r => let* y := f x in let* ys := map_res f r in Ok (y :: ys)
  end.
(** scores.c:1382-1430 *)
Definition column_stat (raw weighted : bool) (gs : list grp) (c : col) : res stat :=
  let zero := length (filter (no_words raw) gs) in
  let arr := map (fun g => value raw weighted g c) gs in
  let* arr := (if (0 <? zero) && moved c then drop_zero (map word_num gs) 0 (length gs) arr else Ok arr) in
  calc_double (firstn (length gs - zero) arr).
Definition stat_lines (do_sm raw weighted : bool) (gs : list grp) : res stats :=
  let* snt := calc_int (map (fun g => Z.of_nat (g_nsent g)) gs) in
  let* wrd := calc_int (map (fun g => Z.of_nat (word_num g)) gs) in
  let* cells := map_res (column_stat raw weighted gs) (stat_row do_sm) in
  let* serr := calc_double (map (serr_value raw) gs) in
  Ok {| t_snt := snt; t_wrd := wrd; t_cells := cells; t_serr := serr;
        t_plus := 0 <? length (filter (no_words raw) gs) |}.

(** scores.c:1057-1548 [print_system_summary] *)
Record report := { r_titles : list col; r_speakers : list line; r_sum : line; r_stats : stats }.
Definition system_summary (do_sm raw weighted : bool) (gs : list grp) : res report :=
  let* st := stat_lines do_sm raw weighted gs in
  Ok {| r_titles := titles do_sm; r_speakers := map (speaker_line do_sm raw weighted) gs;
        r_sum := sum_line do_sm raw weighted gs; r_stats := st |}.

(** ** The reports of several systems *)
(** scores.c:1590-1597 *)
Definition errors (g : grp) : nat := g_ins g + g_sub g + g_del g + g_spl g + g_mrg g.
Definition refs (g : grp) : nat := g_corr g + g_sub g + g_del g + g_spl g + g_mrg g.
Definition err_value (raw : bool) (g : grp) : Q :=
  if raw then nq (errors g) else pct (nq (errors g)) (nq (refs g)).
(** scores.c:1587-1603: the speakers of a system are written from the start of its array, which has room
    for the speakers of the first system and five more *)
Fixpoint fill (raw : bool) (gs : list grp) (g : nat) (arr : list Q) : res (list Q) :=
  match gs with
  | [] => Ok arr
  | x :: r => let* arr := set arr g (err_value raw x) in fill raw r (g + 1) arr
  end.
(** a column of the table: the lines of the speakers, the line of the sums, and the statistics *)
Record column := { c_speakers : list Q; c_sum : Q; c_stat : stat }.
Definition system_column (raw : bool) (n0 : nat) (gs : list grp) : res column :=
  let* arr := fill raw gs 0 (repeat 0%Q (n0 + 5)) in
  let err := nq (sum_nat errors gs) in
  let* st := calc_double (firstn n0 arr) in
  Ok {| c_speakers := firstn n0 arr; c_sum := if raw then err else pct err (nq (sum_nat refs gs)); c_stat := st |}.
(** scores.c:1555-1697 [print_N_system_summary]; the speakers are named by the first system *)
Definition n_system_summary (raw : bool) (systems : list (list grp)) : res (list column) :=
  match systems with
  | [] => Undef
  | g0 :: _ => map_res (system_column raw (length g0)) systems
  end.

(** scores.c:1705-1827 [print_N_system_executive_summary], the line of a system *)
Record executive := { x_snt : nat; x_ref : nat; x_cells : list Q; x_serr : Q }.
Definition executive_line (raw : bool) (gs : list grp) : executive :=
  let tcor := sum_nat g_corr gs in
  let tsub := sum_nat g_sub gs in
  let tins := sum_nat g_ins gs in
  let tdel := sum_nat g_del gs in
  let tsnt := sum_nat g_nsent gs in
  let tserr := sum_nat g_serr gs in
  let tref := tcor + tsub + tdel in
  let terr := tsub + tdel + tins in
  {| x_snt := tsnt; x_ref := tref;
     x_cells := map (fun n => if raw then nq n else pct (nq n) (nq tref)) [tcor; tsub; tdel; tins; terr];
     x_serr := if raw then nq tserr else pct (nq tserr) (nq tsnt) |}.
End Statistics.

(** ** sctk.h:43 [F_ROUND]: the number printed, with [p] digits after the point; the cast to int is
    undefined outside the ints, the cast to float is not modelled (it is exact up to 2^24) *)
Definition f_round (x : Q) (p : nat) : res Q :=
  let s := inject_Z (10 ^ Z.of_nat p) in
  let t := trunc (x * s + (if Qle_bool x 0 then - (1 # 2) else 1 # 2)) in
  if in_int t then Ok (inject_Z t / s)%Q else Undef.
