(** The Friedman analysis of variance by ranks of sc_stats: /repo/src/sclite/anovar.c.

    Doubles are exact fractions, [None] standing for a result that is not a number (0.0 / 0.0); ints are
    unbounded.  The comparison of a difference with a multiple of a square root is made exactly, on the
    squares.  Not modelled: frames, paddings and rounding of the printed report. *)
From Coq Require Import List ZArith QArith NArith Arith Bool.
From Verif Require Import Base Order_Model Summ_Model Rank_Model.
Import ListNotations.
Local Open Scope res_scope.
Local Open Scope nat_scope.

(** statdist.c:54-563, statdist.h:44-95: the table X2, a row for each degree of freedom from 1 to 30, in it
    the values exceeded with a probability of 99, 98, 95, 90, 80, 70, 50, 30, 20, 10, 5, 2, 1 and 0.1 percent *)
Definition x2_table : list (list Q) :=
 ([
   [1 # 6250; 63 # 100000; 39 # 10000; 2 # 125; 8 # 125; 3 # 20; 23 # 50; 107 # 100; 41 # 25; 271 # 100; 96 # 25; 541 # 100; 166 # 25; 1083 # 100];
   [1 # 50; 1 # 25; 1 # 10; 21 # 100; 9 # 20; 71 # 100; 139 # 100; 241 # 100; 161 # 50; 23 # 5; 599 # 100; 391 # 50; 921 # 100; 691 # 50];
   [3 # 25; 9 # 50; 7 # 20; 29 # 50; 1 # 1; 71 # 50; 237 # 100; 183 # 50; 116 # 25; 25 # 4; 391 # 50; 246 # 25; 567 # 50; 1627 # 100];
   [3 # 10; 43 # 100; 71 # 100; 53 # 50; 33 # 20; 11 # 5; 84 # 25; 122 # 25; 599 # 100; 389 # 50; 949 # 100; 1167 # 100; 332 # 25; 923 # 50];
   [11 # 20; 3 # 4; 57 # 50; 161 # 100; 117 # 50; 3 # 1; 87 # 20; 303 # 50; 729 # 100; 231 # 25; 1107 # 100; 1339 # 100; 1509 # 100; 513 # 25];
   [87 # 100; 113 # 100; 41 # 25; 11 # 5; 307 # 100; 383 # 100; 107 # 20; 723 # 100; 214 # 25; 266 # 25; 1259 # 100; 1503 # 100; 1681 # 100; 1123 # 50];
   [31 # 25; 39 # 25; 217 # 100; 283 # 100; 191 # 50; 467 # 100; 127 # 20; 419 # 50; 49 # 5; 601 # 50; 1407 # 100; 831 # 50; 462 # 25; 608 # 25];
   [33 # 20; 203 # 100; 273 # 100; 349 # 100; 459 # 100; 553 # 100; 367 # 50; 238 # 25; 1103 # 100; 334 # 25; 1551 # 100; 1817 # 100; 2009 # 100; 653 # 25];
   [209 # 100; 253 # 100; 83 # 25; 417 # 100; 269 # 50; 639 # 100; 417 # 50; 533 # 50; 306 # 25; 367 # 25; 423 # 25; 492 # 25; 2167 # 100; 697 # 25];
   [64 # 25; 153 # 50; 197 # 50; 243 # 50; 309 # 50; 727 # 100; 467 # 50; 589 # 50; 336 # 25; 1599 # 100; 1831 # 100; 529 # 25; 2321 # 100; 2959 # 100];
   [61 # 20; 361 # 100; 229 # 50; 279 # 50; 699 # 100; 163 # 20; 517 # 50; 129 # 10; 1463 # 100; 432 # 25; 492 # 25; 1131 # 50; 618 # 25; 1563 # 50];
   [357 # 100; 209 # 50; 523 # 100; 63 # 10; 781 # 100; 903 # 100; 567 # 50; 1401 # 100; 1581 # 100; 371 # 20; 2103 # 100; 481 # 20; 1311 # 50; 3291 # 100];
   [411 # 100; 119 # 25; 589 # 100; 176 # 25; 863 # 100; 993 # 100; 617 # 50; 378 # 25; 849 # 50; 1981 # 100; 559 # 25; 2547 # 100; 2769 # 100; 3453 # 100];
   [233 # 50; 537 # 100; 657 # 100; 779 # 100; 947 # 100; 541 # 50; 667 # 50; 811 # 50; 363 # 20; 1053 # 50; 592 # 25; 2687 # 100; 1457 # 50; 903 # 25];
   [523 # 100; 299 # 50; 363 # 50; 171 # 20; 1031 # 100; 293 # 25; 717 # 50; 433 # 25; 1931 # 100; 2231 # 100; 25 # 1; 1413 # 50; 1529 # 50; 377 # 10];
   [581 # 100; 661 # 100; 199 # 25; 931 # 100; 223 # 20; 631 # 50; 767 # 50; 921 # 50; 1023 # 50; 1177 # 50; 263 # 10; 2963 # 100; 32 # 1; 3929 # 100];
   [641 # 100; 363 # 50; 867 # 100; 252 # 25; 12 # 1; 1353 # 100; 817 # 50; 1951 # 100; 1081 # 50; 2477 # 100; 2759 # 100; 31 # 1; 3341 # 100; 163 # 4];
   [351 # 50; 791 # 100; 939 # 100; 543 # 50; 643 # 50; 361 # 25; 867 # 50; 103 # 5; 569 # 25; 2599 # 100; 2887 # 100; 647 # 20; 174 # 5; 4231 # 100];
   [763 # 100; 857 # 100; 253 # 25; 233 # 20; 343 # 25; 307 # 20; 917 # 50; 2169 # 100; 239 # 10; 136 # 5; 1507 # 50; 3369 # 100; 3619 # 100; 2191 # 50];
   [413 # 50; 231 # 25; 217 # 20; 311 # 25; 729 # 50; 1627 # 100; 967 # 50; 1139 # 50; 626 # 25; 2841 # 100; 3141 # 100; 1751 # 50; 3757 # 100; 1133 # 25];
   [89 # 10; 248 # 25; 1159 # 100; 331 # 25; 386 # 25; 859 # 50; 1017 # 50; 1193 # 50; 2617 # 100; 1481 # 50; 3267 # 100; 1817 # 50; 3893 # 100; 234 # 5];
   [477 # 50; 53 # 5; 617 # 50; 351 # 25; 1631 # 100; 181 # 10; 531 # 25; 1247 # 50; 273 # 10; 3081 # 100; 848 # 25; 1883 # 50; 4029 # 100; 4827 # 100];
   [51 # 5; 1129 # 100; 1309 # 100; 297 # 20; 1719 # 100; 951 # 50; 1117 # 50; 1301 # 50; 2843 # 100; 3201 # 100; 3517 # 100; 3897 # 100; 1041 # 25; 4973 # 100];
   [543 # 50; 1199 # 100; 277 # 20; 783 # 50; 903 # 50; 997 # 50; 1167 # 50; 271 # 10; 591 # 20; 166 # 5; 1821 # 50; 4027 # 100; 2149 # 50; 2559 # 50];
   [288 # 25; 127 # 10; 1461 # 100; 1647 # 100; 947 # 50; 2087 # 100; 1217 # 50; 2817 # 100; 767 # 25; 1719 # 50; 753 # 20; 4157 # 100; 4431 # 100; 2631 # 50];
   [61 # 5; 1341 # 100; 769 # 50; 1729 # 100; 991 # 50; 2179 # 100; 1267 # 50; 117 # 4; 159 # 5; 889 # 25; 972 # 25; 2143 # 50; 1141 # 25; 1081 # 20];
   [322 # 25; 353 # 25; 323 # 20; 1811 # 100; 207 # 10; 568 # 25; 1317 # 50; 758 # 25; 3291 # 100; 1837 # 50; 4011 # 100; 2207 # 50; 1174 # 25; 1387 # 25];
   [339 # 25; 297 # 20; 1693 # 100; 947 # 50; 2159 # 100; 473 # 20; 1367 # 50; 3139 # 100; 3403 # 100; 948 # 25; 2067 # 50; 2271 # 50; 1207 # 25; 5689 # 100];
   [713 # 50; 1557 # 100; 1771 # 100; 1977 # 100; 562 # 25; 1229 # 50; 1417 # 50; 1623 # 50; 1757 # 50; 3909 # 100; 1064 # 25; 4669 # 100; 4959 # 100; 583 # 10];
   [299 # 20; 1631 # 100; 1849 # 100; 103 # 5; 584 # 25; 2551 # 100; 1467 # 50; 3353 # 100; 145 # 4; 2013 # 50; 4377 # 100; 1199 # 25; 5089 # 100; 597 # 10]])%Q.
Definition max_df : nat := 29.
Definition min_per : nat := 0.
Definition gen_per : nat := 10.
Definition max_per : nat := 13.
(** statdist.h:129 [X2_score] *)
Definition x2_score (df per : nat) : res Q := let* row := get x2_table df in get row per.

(** statdist.c:34-45 [Z1tail]: the score and the part of the distribution inside it *)
Definition z1_tail : list (Q * Q) :=
 ([(233 # 100, 99 # 100); (411 # 200, 49 # 50); (1881 # 1000, 97 # 100); (1751 # 1000, 24 # 25); (329 # 200, 19 # 20); (311 # 200, 47 # 50); (737 # 500, 93 # 100); (281 # 200, 23 # 25); (67 # 50, 91 # 100); (1381 # 1000, 9 # 10)])%Q.
Definition max_z : nat := 0.
Definition min_z : nat := 9.

(** anovar.c:73-77: the sums of the ranks; [blk_ranks] is kept by system *)
Definition cell_q (T : list (list Q)) (i j : nat) : res Q := let* row := get T i in get row j.
Definition sum_ranks (T : list (list Q)) (n m : nat) : res (list Q) :=
  mapm (fun j => let* c := mapm (fun i => cell_q T i j) (seq 0 n) in Ok (total c)) (seq 0 m).

(** anovar.c:242-250 [dsum_sqr] *)
Definition dsum_sqr (l : list Q) : Q := total (map (fun x => x * x)%Q l).

(** anovar.c:284-291, 324-331: the arrays [sort_arr] and [sort_count]; a value of 0.0 marks a free place *)
Fixpoint place (x : Q) (arr : list (Q * nat)) : res (list (Q * nat)) :=
  match arr with
  | [] => Undef
  | (a, c) :: r =>
      if Qeq_bool a 0 || Qeq_bool x a then Ok ((x, c + 1) :: r)
      else let* r := place x r in Ok ((a, c) :: r)
  end.
Fixpoint place_all (xs : list Q) (arr : list (Q * nat)) : res (list (Q * nat)) :=
  match xs with
  | [] => Ok arr
  | x :: r => let* arr := place x arr in place_all r arr
  end.
(** anovar.c:293-295, 333-335 *)
Definition cubes (c : nat) : nat := if 0 <? c then c * c * c - c else 0.
(** anovar.c:280-295, 320-335: the ties of one row of [n] ranks, of which the counts of the first [lim] are
    used *)
Definition row_ties (xs : list Q) (n lim : nat) : res nat :=
  let* arr := place_all xs (repeat (0%Q, 0) n) in
  let* cs := mapm (fun j => let* e := get arr j in Ok (cubes (snd e))) (seq 0 lim) in
  Ok (list_sum cs).
(** anovar.c:270-305 [calc_adjust_for_trt], 310-344 [calc_adjust_for_blks]: [n] rows of [m] ranks.  The
    loop over the counts of the blocks ends at the number of treatments. *)
Definition calc_adjust (T : list (list Q)) (n m lim : nat) : res (option Q) :=
  let* ts := mapm (fun i => let* xs := mapm (fun j => cell_q T i j) (seq 0 m) in row_ties xs m lim) (seq 0 n) in
  let dem := n * m * (m * m - 1) in
  Ok (if dem =? 0 then None else Some (1 - nq (list_sum ts) / nq dem)%Q).

(** the result of the test of all systems, or of all speakers *)
Record analysis := { v_df : nat; v_stat : option Q; v_adjust : option Q; v_differ : bool }.
Definition gt (x : option Q) (y : Q) : bool := match x with Some x => negb (Qle_bool x y) | None => false end.
Definition lt (x : option Q) (y : Q) : bool := match x with Some x => negb (Qle_bool y x) | None => false end.
(** anovar.c:137-178 [analyze_rank_sum]; without rows or columns the product of the infinite quotient
    and the sum of the squares, which is 0, is not a number *)
Definition analyze (trt_num blk_num : nat) (sums : list Q) (adjust : option Q) : res analysis :=
  let df := if max_df <? trt_num - 2 then max_df else trt_num - 2 in
  let dem := blk_num * trt_num * (trt_num + 1) in
  let x := if dem =? 0 then None else Some (12 / nq dem * dsum_sqr sums - 3 * nq blk_num * nq (trt_num + 1))%Q in
  let x := match adjust, x with
           | Some a, _ => if Qeq_bool a 0 then Some 0%Q else option_map (fun x => x / a)%Q x
           | None, _ => None
           end in
  let* level := x2_score df gen_per in
  Ok {| v_df := df; v_stat := x; v_adjust := adjust; v_differ := gt x level |}.

(** anovar.c:183-237 [print_result_of_analyze_rank_sum]: what it says about the probability, in indices of
    the table *)
Inductive said := Above (i : nat) | Between (i j : nat) | Below (i : nat).
(** anovar.c:210-212 *)
Fixpoint search_up (fuel : nat) (x : option Q) (df i : nat) : res nat :=
  match fuel with
  | O => NoFuel
  | S fuel =>
      if i <? max_per then
        let* s := x2_score df (i + 1) in
        if lt x s then Ok i else search_up fuel x df (i + 1)
      else Ok i
  end.
(** anovar.c:227-229 *)
Fixpoint search_down (fuel : nat) (x : option Q) (df i : nat) : res nat :=
  match fuel with
  | O => NoFuel
  | S fuel =>
      if min_per <? i then
        let* s := x2_score df (i - 1) in
        if gt x s then Ok i else search_down fuel x df (i - 1)
      else Ok i
  end.
Definition probability (a : analysis) : res said :=
  let* level := x2_score (v_df a) gen_per in
  if gt (v_stat a) level then
    let* i := search_up (max_per + 1) (v_stat a) (v_df a) gen_per in
    Ok (if i =? max_per then Above i else Between i (i + 1))
  else
    let* i := search_down (max_per + 1) (v_stat a) (v_df a) gen_per in
    Ok (if i =? min_per then Below i else Between (i - 1) i).

(** anovar.c:404-419 [calc_comp_value]; the area is infinite for a single system *)
Definition exter (z : Q * Q) : Q := (1 - snd z)%Q.
Fixpoint z_search (area : Q) (l : list (Q * Q)) (n : nat) : option Q :=
  match l, n with
  | z :: r, S n => if negb (Qle_bool (exter z) area) then Some (fst z) else z_search area r n
  | _, _ => None
  end.
Definition calc_comp_value (trt_num : nat) : res Q :=
  let* top := get z1_tail max_z in
  let* low := get z1_tail min_z in
  match trt_num * (trt_num - 1) with
  | O => Ok (fst low)
  | d =>
      let area := ((5 # 100) / nq d)%Q in
      if negb (Qle_bool (exter top) area) then Ok (fst top)
      else match z_search area (skipn (max_z + 1) z1_tail) (min_z - (max_z + 1)) with
           | Some z => Ok z
           | None => Ok (fst low)
           end
  end.

(** anovar.c:388-394: the comparison of two systems *)
Definition compare_pair (z x : Q) (s1 s2 : Q) : Z :=
  let d := (s1 - s2)%Q in
  if Qle_bool (z * z * x) (d * d) then if negb (Qle_bool s1 s2) then 1%Z else (-1)%Z else 0%Z.
Definition add_cell (W : list (list Z)) (i j : nat) (r : Z) : res (list (list Z)) :=
  let* row := get W i in
  let* w := get row j in
  let* row := set row j (w + r)%Z in
  set W i row.
(** anovar.c:386-397: the inner and the outer loop *)
Fixpoint inner (z x : Q) (sums : list Q) (c1 : nat) (c2s : list nat) (W : list (list Z)) : res (list (list Z)) :=
  match c2s with
  | [] => Ok W
  | c2 :: r =>
      let* s1 := get sums c1 in
      let* s2 := get sums c2 in
      let result := compare_pair z x s1 s2 in
      let* W := add_cell W c1 c2 result in
      let* W := add_cell W c2 c1 (result * -1)%Z in
      inner z x sums c1 r W
  end.
Fixpoint outer (z x : Q) (sums : list Q) (n : nat) (c1s : list nat) (W : list (list Z)) : res (list (list Z)) :=
  match c1s with
  | [] => Ok W
  | c1 :: r => let* W := inner z x sums c1 (seq (c1 + 1) (n - (c1 + 1))) W in outer z x sums n r W
  end.
(** anovar.c:374-398 [calc_stat_ranks] on the matrix of zeros of lines 64-65 *)
Definition calc_stat_ranks (trt_num blk_num : nat) (sums : list Q) : res (list (list Z)) :=
  let* z := calc_comp_value trt_num in
  let x := (nq (blk_num * trt_num * (trt_num - 1)) / 6)%Q in
  outer z x sums trt_num (seq 0 (trt_num - 1)) (repeat (repeat 0%Z trt_num) trt_num).

(** anovar.c:422-483 [print_ANOVAR_comp_matrix] *)
Inductive printed := Named (name : list N) | Same | Nothing.
Definition max_len (names : list (list N)) : nat :=
  fold_left (fun m s => if m <? length s then length s else m) names 4.
(** anovar.c:463-474 *)
Definition matrix_cell (W : list (list Z)) (names : list (list N)) (srt : list nat) (t t2 : nat) : res printed :=
  if t <? t2 then
    let* p := get srt t in
    let* p2 := get srt t2 in
    let* row := get W p in
    let* w := get row p2 in
    if (w =? -1)%Z then let* s := get names p in Ok (Named s)
    else if (w =? 1)%Z then let* s := get names p2 in Ok (Named s)
    else Ok Same
  else Ok Nothing.
(** the pointers [hyphens + (hy_l - (max_trt_name_len + 3))], lines 441-481, must not lie before the
    strings of 20 characters *)
Definition print_matrix (names : list (list N)) (W : list (list Z)) (srt : list nat) : res (list (list N * list printed)) :=
  if 20 <? max_len names + 3 then Undef
  else
    let n := length names in
    mapm (fun t => let* p := get srt t in
                   let* s := get names p in
                   let* cs := mapm (fun t2 => matrix_cell W names srt t t2) (seq 0 n) in
                   Ok (s, cs)) (seq 0 n).

(** what is known at the end of one half of the analysis *)
Record half := { h_analysis : analysis; h_said : option said; h_wins : list (list Z);
                 h_matrix : option (list (list N * list printed)) }.
(** anovar.c:87-96 or 106-113; the outcome of the test only clears a matrix of zeros, so the comparison
    is always made *)
Definition half_of (verbose : bool) (trt_num blk_num : nat) (sums : list Q) (adjust : option Q)
  (names : list (list N)) (srt : list nat) : res half :=
  let* a := analyze trt_num blk_num sums adjust in
  let* p := if verbose then let* p := probability a in Ok (Some p) else Ok None in
  let* W := calc_stat_ranks trt_num blk_num sums in
  let* M := if verbose then let* M := print_matrix names W srt in Ok (Some M) else Ok None in
  Ok {| h_analysis := a; h_said := p; h_wins := W; h_matrix := M |}.
Definition systems_half (verbose : bool) (r : rank) : res half :=
  let* sums := sum_ranks (r_trt_ranks r) (r_n_blk r) (r_n_trt r) in
  let* adjust := calc_adjust (r_trt_ranks r) (r_n_blk r) (r_n_trt r) (r_n_trt r) in
  half_of verbose (r_n_trt r) (r_n_blk r) sums adjust (r_trt_name r) (r_blk_srt_ind r).
Definition speakers_half (verbose : bool) (r : rank) : res half :=
  let* sums := sum_ranks (r_blk_ranks r) (r_n_trt r) (r_n_blk r) in
  let* adjust := calc_adjust (r_blk_ranks r) (r_n_trt r) (r_n_blk r) (r_n_trt r) in
  let* names := mapm known (r_blk_name r) in
  half_of verbose (r_n_blk r) (r_n_trt r) sums adjust names (r_trt_srt_ind r).
(** anovar.c:44-119 [compute_anovar]: both halves, the winners among the systems and the matrix of
    confidences, which nothing writes to *)
Definition compute_anovar (verbose : bool) (r : rank) : res (half * half * list (list Z) * list (list Q)) :=
  let* s := systems_half verbose r in
  let* b := speakers_half verbose r in
  Ok (s, b, h_wins s, repeat (repeat 0%Q (r_n_trt r)) (r_n_trt r)).
