(** The tests that compare two systems speaker by speaker: /repo/src/sclite/signtest.c and
    wilcoxon.c.  The percentages of the RANK structure are doubles, all of them multiples of one
    unit; here they are integers in that unit, and [thr] is the constant 0.005 in the same unit.
    Sums and differences of percentages are exact.  The printing is not modelled. *)
From Coq Require Import List Arith ZArith QArith Bool.
From Verif Require Import Base Order_Model Binom_Model.
Import ListNotations.
Local Open Scope res_scope.
Local Open Scope nat_scope.

(** statdist.h:17-18 *)
Definition TEST_DIFF : Z := 1.
Definition NO_DIFF : Z := 0.
Definition alpha : Q := 1 # 20.

(** [rank->pcts[block][treat]]: one row per speaker *)
Definition pct (pcts : list (list Z)) (block treat : nat) : res Z :=
  let* row := get pcts block in get row treat.

(** signtest.c:96-99, wilcoxon.c:93-96: the sums over the speakers *)
Fixpoint sum_loop (pcts : list (list Z)) (treat : nat) (k block : nat) (acc : Z) : res Z :=
  match k with
  | O => Ok acc
  | S k' => let* v := pct pcts block treat in sum_loop pcts treat k' (block + 1) (acc + v)%Z
  end.
Definition total (pcts : list (list Z)) (treat : nat) : res Z := sum_loop pcts treat (length pcts) 0 0%Z.
(** signtest.c:100-103, wilcoxon.c:97-100: the system with the larger sum first *)
Definition tptr (pcts : list (list Z)) (treat1 treat2 : nat) : res (nat * nat) :=
  let* s1 := total pcts treat1 in
  let* s2 := total pcts treat2 in
  if (s2 <? s1)%Z then Ok (treat1, treat2) else Ok (treat2, treat1).

Section Tests.
Variable thr : Z.

(** signtest.c:152-178: the signs of the differences, as (plus, minus, equal) *)
Fixpoint sign_loop (pcts : list (list Z)) (t0 t1 : nat) (k block plus minus equal : nat) : res (nat * nat * nat) :=
  match k with
  | O => Ok (plus, minus, equal)
  | S k' =>
      let* a := pct pcts block t0 in
      let* b := pct pcts block t1 in
      if (Z.abs (a - b) <=? thr)%Z then sign_loop pcts t0 t1 k' (block + 1) plus minus (equal + 1)
      else if (a <? b)%Z then sign_loop pcts t0 t1 k' (block + 1) plus (minus + 1) equal
      else sign_loop pcts t0 t1 k' (block + 1) (plus + 1) minus equal
  end.

(** signtest.c:222-303 [sign_test_analysis]: the result and the confidence *)
Definition sign_test_analysis (num_a num_b num_z : nat) (zero_is_best : bool) : Z * Q :=
  let num_b := num_b + (num_z / 2 + num_z mod 2) in
  let num_a := num_a + num_z / 2 in
  let test_stat :=
    (if num_a =? num_b then 1
     else 2 * acc_binomial (Z.of_nat (Nat.min num_a num_b)) (Z.of_nat (num_a + num_b)) (1 # 2))%Q in
  (if Qle_bool alpha test_stat then NO_DIFF
   else (TEST_DIFF * (if zero_is_best then 1 else -1))%Z, test_stat).

(** signtest.c:71-216 [compute_signtest_for_treatment] *)
Definition compute_signtest (pcts : list (list Z)) (treat1 treat2 : nat) (zero_is_best : bool) : res (Z * Q) :=
  let* (t0, t1) := tptr pcts treat1 treat2 in
  let* (plus, minus, equal) := sign_loop pcts t0 t1 (length pcts) 0 0 0 0 in
  let (result, conf) := sign_test_analysis plus minus equal zero_is_best in
  Ok ((result * (if (t0 =? treat1)%nat then 1 else -1))%Z, conf).

(** wilcoxon.c:104-106, 108-110: the differences *)
Fixpoint diff_loop (pcts : list (list Z)) (t0 t1 : nat) (k block : nat) : res (list Z) :=
  match k with
  | O => Ok []
  | S k' =>
      let* a := pct pcts block t0 in
      let* b := pct pcts block t1 in
      let* l := diff_loop pcts t0 t1 k' (block + 1) in
      Ok ((a - b)%Z :: l)
  end.

Record wsum := { w_plus : nat; w_minus : nat; w_plus_rank : Q; w_minus_rank : Q }.
Definition add_plus (w : wsum) (r : Q) : wsum :=
  {| w_plus := w_plus w + 1; w_minus := w_minus w; w_plus_rank := w_plus_rank w + r; w_minus_rank := w_minus_rank w |}.
Definition add_minus (w : wsum) (r : Q) : wsum :=
  {| w_plus := w_plus w; w_minus := w_minus w + 1; w_plus_rank := w_plus_rank w; w_minus_rank := w_minus_rank w + r |}.

(** wilcoxon.c:163-199: the ranks of the positive and the negative differences; differences of
    about zero go to the two in turn *)
Fixpoint wilcoxon_loop (diff : list Z) (rank : list Q) (k block alternate : nat) (w : wsum) : res wsum :=
  match k with
  | O => Ok w
  | S k' =>
      let* d := get diff block in
      let* r := get rank block in
      if ((d <? 0) && (thr <? Z.abs d))%Z then wilcoxon_loop diff rank k' (block + 1) alternate (add_minus w r)
      else if ((0 <? d) && (thr <? Z.abs d))%Z then wilcoxon_loop diff rank k' (block + 1) alternate (add_plus w r)
      else if alternate mod 2 =? 0
           then wilcoxon_loop diff rank k' (block + 1) (alternate + 1) (add_plus w r)
           else wilcoxon_loop diff rank k' (block + 1) (alternate + 1) (add_minus w r)
  end.

(** statdist.c:20-31 [Z2tail]: the score and the interior *)
Definition z2tail : list (Q * Q) :=
  [(2575 # 1000, 99 # 100); (2329 # 1000, 98 # 100); (2170 # 1000, 97 # 100); (2055 # 1000, 96 # 100);
   (1960 # 1000, 95 # 100); (1881 # 1000, 94 # 100); (1811 # 1000, 93 # 100); (1751 # 1000, 92 # 100);
   (1695 # 1000, 91 # 100); (1645 # 1000, 90 # 100)]%Q.
(** wilcoxon.c:253-258: the last entry that reaches the level *)
Definition z_score : Q :=
  fold_left (fun (z : Q) (e : Q * Q) => if Qle_bool (snd e - (1 - alpha))%Q (- (1 # 1000))%Q then z else fst e) z2tail (fst (hd (0, 0)%Q z2tail)).

(** wilcoxon.c:247-319 [wilcoxon_test_analysis].  The statistic is (W - E) / sqrt(var).  It is
    compared by squares; for a negative [var] the root is not a number, every comparison with it is
    false, and [normprob] falls through to the last entry of its table, as it does for 0 / 0 and for
    an infinite statistic.  The product in [var] is computed on ints. *)
Definition wilcoxon_analysis (num_a num_b : nat) (sum_a sum_b : Q) (zero_is_best : bool) : Z * Q :=
  let W := if num_a <? num_b then sum_a else sum_b in
  let n := Z.of_nat (num_a + num_b) in
  let better_b := num_a <? num_b in
  let better_b := if zero_is_best then negb better_b else better_b in
  let E := (inject_Z n * inject_Z (n + 1) / 4)%Q in
  let var := (inject_Z (wrap32 (wrap32 (n * (n + 1)) * (2 * n + 1))) / 24)%Q in
  let d2 := ((W - E) * (W - E))%Q in
  let prob := if Qle_bool var 0 then unit9 (last fnorm 0%Z) else normprob d2 var in
  let conf := (1 - 2 * (prob - (1 # 2)))%Q in
  (if Qle_bool 0 var && negb (Qle_bool d2 (z_score * z_score * var))
   then (TEST_DIFF * (if better_b then 1 else -1))%Z else NO_DIFF, conf).

Variable qsort : (nat -> nat -> Z) -> list nat -> list nat.

(** wilcoxon.c:74-241 [compute_wilcoxon_for_treatment] *)
Definition compute_wilcoxon (pcts : list (list Z)) (treat1 treat2 : nat) (zero_is_best : bool) : res (Z * Q) :=
  let n := length pcts in
  let* (t0, t1) := tptr pcts treat1 treat2 in
  let* diff := diff_loop pcts t0 t1 n 0 in
  (* the array of ranks is not initialised *)
  let* (_, rank) := rank_double_arr qsort (map Z.abs diff) Increasing (repeat 0%Q n) in
  let* w := wilcoxon_loop diff rank n 0 0 {| w_plus := 0; w_minus := 0; w_plus_rank := 0; w_minus_rank := 0 |} in
  let (result, conf) := wilcoxon_analysis (w_plus w) (w_minus w) (w_plus_rank w) (w_minus_rank w) zero_is_best in
  Ok ((result * (if (t0 =? treat1)%nat then 1 else -1))%Z, conf).
End Tests.
