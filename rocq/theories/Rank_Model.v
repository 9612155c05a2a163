(** The RANK structure of the statistical tests and the range tables made from it:
    /repo/src/sclite/rank.c and range.c.

    Doubles are exact fractions and counters are unbounded.  The lines, frames and paddings of the
    printed tables are not modelled, nor is the rounding of the printed numbers. *)
From Coq Require Import List ZArith QArith NArith Arith Bool.
From Verif Require Import Base Order_Model Summ_Model.
Import ListNotations.
Local Open Scope res_scope.
Local Open Scope nat_scope.

(** sctk.h:91-115 [GRP]: what is used of the scores of one speaker *)
Record speaker := { k_name : list N; k_corr : nat; k_sub : nat; k_del : nat; k_ins : nat }.
(** sctk.h:137-152 [SCORES] *)
Record system := { y_title : list N; y_grps : list speaker }.

(** sctk.h:45 [pct] of two ints *)
Definition pct_int (num dem : nat) : Q := if dem =? 0 then 0%Q else (nq num / nq dem * 100)%Q.
(** the first character of the formula: [R], [E], [W] or another *)
Inductive formula := FR | FE | FW | Fother.
(** rank.c:58-76; another formula leaves the cell as it is *)
Definition percentage (f : formula) (k : speaker) : option Q :=
  let c := k_corr k in
  let s := k_sub k in
  let d := k_del k in
  let i := k_ins k in
  match f with
  | FR => Some (pct_int c (c + s + d))
  | FE => Some (pct_int (i + s + d) (c + d + s))
  | FW => Some (100 - pct_int (i + s + d) (c + d + s))%Q
  | Fother => None
  end.

(** rank.h:32-45 [RANK]; cells of fresh memory are [None].  [r_blk_ranks] is kept by system, that is
    [blk_ranks[b][t]] is the element [b] of the row [t]. *)
Record rank := {
  r_n_blk : nat; r_n_trt : nat;
  r_blk_name : list (option (list N)); r_trt_name : list (list N);
  r_pcts : list (list (option Q));
  r_trt_ranks : list (list Q); r_blk_ranks : list (list Q);
  r_blk_srt_ind : list nat; r_trt_srt_ind : list nat }.

(** reading a cell of fresh memory is undefined *)
Definition known {A} (x : option A) : res A := match x with Some v => Ok v | None => Undef end.
Fixpoint mapm {A B} (f : A -> res B) (l : list A) : res (list B) :=
  match l with
  | [] => Ok []
  | x :: r => let* y := f x in let* ys := mapm f r in Ok (y :: ys)
  end.

(** rank.c:24-33: the greatest number of speakers *)
Definition num_blk (ss : list system) : nat :=
  fold_left (fun blk s => if blk <? length (y_grps s) then length (y_grps s) else blk) ss 0.
(** rank.c:40-42: the names of the speakers of the first system *)
Definition blk_names (ss : list system) (blk : nat) : res (list (option (list N))) :=
  match blk with
  | O => Ok []
  | _ => let* s := get ss 0 in
         Ok (map (fun i => option_map k_name (nth_error (y_grps s) i)) (seq 0 blk))
  end.
(** rank.c:53-77: the speakers of system [n] from [g] on *)
Fixpoint fill_grps (f : formula) (n g : nat) (ks : list speaker) (pcts : list (list (option Q))) : res (list (list (option Q))) :=
  match ks with
  | [] => Ok pcts
  | k :: r =>
      match percentage f k with
      | Some q =>
          let* row := get pcts g in
          let* row := set row n (Some q) in
          let* pcts := set pcts g row in
          fill_grps f n (g + 1) r pcts
      | None => fill_grps f n (g + 1) r pcts
      end
  end.
Fixpoint fill (f : formula) (n : nat) (ss : list system) (pcts : list (list (option Q))) : res (list (list (option Q))) :=
  match ss with
  | [] => Ok pcts
  | s :: r => let* pcts := fill_grps f n 0 (y_grps s) pcts in fill f (n + 1) r pcts
  end.

(** [pcts[b][t]] *)
Definition cell (pcts : list (list (option Q))) (b t : nat) : res Q :=
  let* row := get pcts b in let* c := get row t in known c.
Definition row_of (pcts : list (list (option Q))) (n_trt b : nat) : res (list Q) :=
  mapm (fun t => cell pcts b t) (seq 0 n_trt).
Definition column_of (pcts : list (list (option Q))) (n_blk t : nat) : res (list Q) :=
  mapm (fun b => cell pcts b t) (seq 0 n_blk).

(** Ranking uses of doubles only how they compare; to use Order_Model, which ranks integers, they are
    brought to a common denominator. *)
Definition denominator (l : list Q) : positive := fold_right (fun q d => (Qden q * d)%positive) 1%positive l.
Definition in_units (l : list Q) : list Z := map (fun q => (Qnum q * (Zpos (denominator l) / Zpos (Qden q)))%Z) l.

Section Rank.
(** qsort of the C library *)
Variable qsort : (nat -> nat -> Z) -> list nat -> list nat.

(** order.c:251-275 [rank_double_arr] into a fresh array *)
Definition rank_pcts (l : list Q) (o : order) : res (list nat * list Q) :=
  rank_double_arr qsort (in_units l) o (repeat 0%Q (length l)).

(** rank.c:107-161 [rank_on_pcts]: the ranks over the systems for each speaker, the ranks over the
    speakers for each system, the order of the systems and of the speakers by the sums *)
Definition rank_on_pcts (n_blk n_trt : nat) (pcts : list (list (option Q))) (o : order)
  : res (list (list Q) * list (list Q) * list nat * list nat) :=
  let* trt_ranks := mapm (fun b => let* v := row_of pcts n_trt b in let* (_, r) := rank_pcts v o in Ok r) (seq 0 n_blk) in
  let* blk_ranks := mapm (fun t => let* v := column_of pcts n_blk t in let* (_, r) := rank_pcts v o in Ok r) (seq 0 n_trt) in
  let* t_pcts := mapm (fun t => let* v := column_of pcts n_blk t in Ok (total v)) (seq 0 n_trt) in
  let* b_pcts := mapm (fun b => let* v := row_of pcts n_trt b in Ok (total v)) (seq 0 n_blk) in
  let* (blk_srt_ind, _) := rank_pcts t_pcts o in
  let* (trt_srt_ind, _) := rank_pcts b_pcts o in
  Ok (trt_ranks, blk_ranks, blk_srt_ind, trt_srt_ind).

(** rank.c:19-84 [init_RANK_struct_from_SCORES] *)
Definition init_rank (f : formula) (ss : list system) : res rank :=
  let blk := num_blk ss in
  let trt := length ss in
  let* names := blk_names ss blk in
  let* pcts := fill f 0 ss (repeat (repeat None trt) blk) in
  let* (trt_ranks, blk_ranks, bs, ts) :=
    rank_on_pcts blk trt pcts (match f with FE => Increasing | _ => Decreasing end) in
  Ok {| r_n_blk := blk; r_n_trt := trt; r_blk_name := names; r_trt_name := map y_title ss;
        r_pcts := pcts; r_trt_ranks := trt_ranks; r_blk_ranks := blk_ranks;
        r_blk_srt_ind := bs; r_trt_srt_ind := ts |}.

(** ** range.c *)
(** sqrt of the C library *)
Variable sqrt : Q -> Q.

(** range.c:103-113, 153-163: the highest and the lowest value *)
Fixpoint high_low (l : list Q) (high low : Q) : Q * Q :=
  match l with
  | [] => (high, low)
  | x :: r =>
      let high := if Qle_bool x high then high else x in
      let low := if Qle_bool low x then low else x in
      high_low r high low
  end.
(** highest, lowest, standard deviation and mean *)
Record range := { a_high : Q; a_low : Q; a_dev : Q; a_mean : Q }.
(** range.c:100-116, 150-168 *)
Definition range_of (l : list Q) : res range :=
  let (high, low) := high_low l 0%Q 100%Q in
  let* s := calc_double qsort l in
  Ok {| a_high := high; a_low := low; a_dev := sqrt (s_var s); a_mean := s_mean s |}.

Inductive mark := Bar | Plus | Blank | Dash.
Definition qlt (a b : Q) : bool := negb (Qle_bool b a).
(** range.c:299-316: the character of column [j]; [scale] is 1 or 2 *)
Definition mark_at (scale : nat) (a : range) (j : nat) : mark :=
  let h := ((1 # 10000) + nq scale / 2)%Q in
  let near := fun c : Q => qlt (c - h) (nq j) && qlt (nq j) (c + h) in
  if near (a_mean a) then Bar
  else if near (a_mean a + a_dev a)%Q || near (a_mean a - a_dev a)%Q then Plus
  else if qlt (a_high a) (nq j) || qlt (nq j) (a_low a) then Blank
  else Dash.
(** range.c:298: the columns 0, scale, 2 scale, ... up to 100 *)
Definition graph (scale : nat) (a : range) : list mark :=
  map (fun k => mark_at scale a (k * scale)) (seq 0 (100 / scale + 1)).
Record range_line := { e_name : list N; e_range : range; e_graph : list mark }.
(** range.c:183-328 [print_range_graph]: the lines of the table and of the graph, which list the same
    things in the same order *)
Definition print_range_graph (scale : nat) (ranges : list range) (names : list (option (list N))) (ptr : list nat) : res (list range_line) :=
  let* names := mapm known names in
  mapm (fun p => let* n := get names p in let* a := get ranges p in
                 Ok {| e_name := n; e_range := a; e_graph := graph scale a |}) ptr.
(** range.c:81-127 [do_blk_ranges] *)
Definition do_blk_ranges (r : rank) (scale : nat) : res (list range_line) :=
  let* ranges := mapm (fun i => let* v := row_of (r_pcts r) (r_n_trt r) i in range_of v) (seq 0 (r_n_blk r)) in
  print_range_graph scale ranges (r_blk_name r) (r_trt_srt_ind r).
(** range.c:132-175 [do_trt_ranges] *)
Definition do_trt_ranges (r : rank) (scale : nat) : res (list range_line) :=
  let* ranges := mapm (fun i => let* v := column_of (r_pcts r) (r_n_blk r) i in range_of v) (seq 0 (r_n_trt r)) in
  print_range_graph scale ranges (map Some (r_trt_name r)) (r_blk_srt_ind r).
(** range.c:45-70 [print_rank_ranges]: the table of the speakers, then that of the systems *)
Definition print_rank_ranges (r : rank) (scale : nat) : res (list range_line * list range_line) :=
  let* a := do_blk_ranges r scale in
  let* b := do_trt_ranges r scale in
  Ok (a, b).

(** range.c:399-405, 425-431, 538-544, 585-591: the median by the sorted indices *)
Definition median_of (l : list Q) : res Q :=
  let* (ind, _) := rank_pcts l Increasing in
  let h := length l / 2 in
  if length l mod 2 =? 0 then
    let* p := get ind h in
    let* x := get l p in
    let* p1 := (if h =? 0 then Undef else get ind (h - 1)) in
    let* y := get l p1 in
    Ok ((x + y) / 2)%Q
  else
    let* p := get ind h in get l p.

(** one entry of the GNUPLOT files: the position on the axis with its label, the points, the mean and
    the median *)
Record entry := { n_pos : nat; n_label : list N; n_points : list Q; n_mean : Q; n_median : Q }.
Definition entry_of (pos : nat) (label : list N) (v : list Q) : res entry :=
  let* m := median_of v in
  Ok {| n_pos := pos; n_label := label; n_points := v; n_mean := (total v / nq (length v))%Q; n_median := m |}.
(** range.c:388-438: the speakers (1) or the systems (0) *)
Definition gnu_entries (r : rank) (for_blks : bool) : res (list entry) :=
  if for_blks then
    mapm (fun b =>
      let* p := get (r_trt_srt_ind r) b in
      let* v := row_of (r_pcts r) (r_n_trt r) p in
      let* n := get (r_blk_name r) p in
      let* n := known n in
      entry_of (b + 1) n v) (seq 0 (r_n_blk r))
  else
    mapm (fun t =>
      let* p := get (r_blk_srt_ind r) t in
      let* v := column_of (r_pcts r) (r_n_blk r) p in
      let* n := get (r_trt_name r) p in
      entry_of (t + 1) n v) (seq 0 (r_n_trt r)).
(** range.c:335-463 [print_gnu_range_graph], 27-31: the files for the speakers and for the systems *)
Definition print_gnu (r : rank) : res (list entry * list entry) :=
  let* a := gnu_entries r true in
  let* b := gnu_entries r false in
  Ok (a, b).

(** range.c:558-563, 605-610: the format of the plot of series [t] in a buffer of 100 bytes *)
Definition series (names : list (list N)) : res (list (list N)) :=
  mapm (fun t => let* n := get names t in if 3 + 3 * t + 3 <? 100 then Ok n else Undef) (seq 0 (length names)).
(** range.c:472-510: the names of the files in buffers of 50 bytes; [base] is their stem *)
Definition files_fit (base : list N) : bool := length base + 4 + 7 <? 50.
(** range.c:468-624 [print_gnu_range_graph2], 36-40: as before, with a plot for each series *)
Definition gnu2 (r : rank) (base : list N) (for_blks : bool) : res (list entry * list (list N)) :=
  if files_fit base then
    let* es := gnu_entries r for_blks in
    let* names := (if for_blks then Ok (r_trt_name r) else mapm known (r_blk_name r)) in
    let* titles := series names in
    Ok (es, titles)
  else Undef.
Definition print_gnu2 (r : rank) (base : list N) : res ((list entry * list (list N)) * (list entry * list (list N))) :=
  let* a := gnu2 r base true in
  let* b := gnu2 r base false in
  Ok (a, b).
End Rank.
