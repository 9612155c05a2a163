(** Friedman's analysis of variance by ranks. *)
From Coq Require Import List ZArith QArith NArith Arith Bool.
From Verif Require Import Base Order_Model Rank_Model Rank_Spec Anovar_Model.
Import ListNotations.
Local Open Scope nat_scope.

(** Every row of a table holds the values of the same [m] things, which are ranked in each row. *)
Definition rank_sum (o : order) (rows : list (list Q)) (j : nat) : Q :=
  sum (map (fun row => rank_in o row (nth j row 0%Q)) rows).
(** the squared deviations of the sums of the ranks, and of the ranks, from what is expected *)
Definition between (o : order) (rows : list (list Q)) (m : nat) : Q :=
  sum (map (fun j => let d := rank_sum o rows j - q (length rows) * (q m + 1) / 2 in d * d)%Q (seq 0 m)).
Definition within (o : order) (rows : list (list Q)) (m : nat) : Q :=
  sum (map (fun row => sum (map (fun x => let d := rank_in o row x - (q m + 1) / 2 in d * d)%Q row)) rows).
(** Friedman's statistic with the correction for ties is (m - 1) between / within, 0 if all is tied *)
Definition friedman (o : order) (rows : list (list Q)) (m : nat) (x : Q) : Prop :=
  (x * within o rows m == (q m - 1) * between o rows m)%Q /\ ((within o rows m == 0)%Q -> (x == 0)%Q).

(** the values of the chi-square distribution exceeded with a probability of 5 percent, for 1, 2, ... 30
    degrees of freedom *)
Definition chi5 : list Q :=
 ([384 # 100; 599 # 100; 782 # 100; 949 # 100; 1107 # 100; 1259 # 100; 1407 # 100; 1551 # 100; 1692 # 100; 1831 # 100;
   1968 # 100; 2103 # 100; 2236 # 100; 2368 # 100; 2500 # 100; 2630 # 100; 2759 # 100; 2887 # 100; 3014 # 100; 3141 # 100;
   3267 # 100; 3392 # 100; 3517 # 100; 3642 # 100; 3765 # 100; 3888 # 100; 4011 # 100; 4134 # 100; 4256 # 100; 4377 # 100])%Q.
(** [m] things have m - 1 degrees of freedom *)
Definition rejects (m : nat) (x : Q) (b : bool) : Prop := b = true <-> (nth (m - 2) chi5 0 < x)%Q.

(** two sums of ranks lie [z] standard deviations apart; the code takes b m (m - 1) / 6 for the square of
    one *)
Definition z_value (m : nat) : Q := (if m =? 2 then 1881 # 1000 else 233 # 100)%Q.
Definition apart (z var : Q) (s1 s2 : Q) : Prop := (z * z * var <= (s1 - s2) * (s1 - s2))%Q.
Definition variance_used (b m : nat) : Q := (q b * q m * (q m - 1) / 6)%Q.
(** Daniel, Applied Nonparametric Statistics; the comment of the function *)
Definition variance_daniel (b m : nat) : Q := (q b * q m * (q m + 1) / 6)%Q.
Definition win (W : list (list Z)) (i j : nat) : Z := nth j (nth i W []) 0%Z.
(** [W] is 1 where the row has the greater sum, -1 where it has the smaller one, 0 where they are not apart *)
Definition compared (o : order) (rows : list (list Q)) (m : nat) (W : list (list Z)) : Prop :=
  length W = m /\ Forall (fun row => length row = m) W /\
  forall i j, i < m -> j < m ->
    let far := apart (z_value m) (variance_used (length rows) m) (rank_sum o rows i) (rank_sum o rows j) in
    (win W i j = 1%Z <-> far /\ (rank_sum o rows j < rank_sum o rows i)%Q) /\
    (win W i j = (-1)%Z <-> far /\ (rank_sum o rows i < rank_sum o rows j)%Q) /\
    (win W i j = 0%Z <-> ~ far).

(** the matrix has a row for every thing, in the order [srt], and above the diagonal names the better one
    of two that differ: the one with the smaller sum of ranks *)
Definition better_named (o : order) (rows : list (list Q)) (m : nat) (names : list (list N)) (i j : nat) (c : printed) : Prop :=
  let far := apart (z_value m) (variance_used (length rows) m) (rank_sum o rows i) (rank_sum o rows j) in
  (far /\ (rank_sum o rows i < rank_sum o rows j)%Q /\ c = Named (nth i names [])) \/
  (far /\ (rank_sum o rows j < rank_sum o rows i)%Q /\ c = Named (nth j names [])) \/
  (~ far /\ c = Same).
Definition matrix_of (o : order) (rows : list (list Q)) (m : nat) (names : list (list N)) (srt : list nat)
  (M : list (list N * list printed)) : Prop :=
  length M = m /\
  forall t, t < m -> exists cs, nth_error M t = Some (nth (nth t srt 0) names [], cs) /\ length cs = m /\
    forall t2, t2 < m -> exists c, nth_error cs t2 = Some c /\
      if t <? t2 then better_named o rows m names (nth t srt 0) (nth t2 srt 0) c else c = Nothing.

(** at most [lim] different values *)
Definition few_values (lim : nat) (row : list Q) : Prop :=
  exists vals, length vals <= lim /\ forall x, In x row -> Exists (Qeq x) vals.
Definition all_different (row : list Q) : Prop :=
  forall i j, i < length row -> j < length row -> (nth i row 0 == nth j row 0)%Q -> i = j.

(** a column of the table of the chi-square distribution *)
Definition level (df per : nat) : Q := nth per (nth df x2_table []) 0%Q.
(** what is said about the probability holds of the statistic [x] *)
Definition true_of (df : nat) (x : Q) (s : said) : Prop :=
  match s with
  | Above i => i = 13 /\ (level df i <= x)%Q
  | Between i j => j = i + 1 /\ j <= 13 /\ (level df i <= x <= level df j)%Q
  | Below i => i = 0 /\ (x <= level df i)%Q
  end.

(** one half of the analysis *)
Definition analysed (verbose : bool) (o : order) (rows : list (list Q)) (m : nat) (names : list (list N)) (srt : list nat) (h : half) : Prop :=
  (exists x, v_stat (h_analysis h) = Some x /\ friedman o rows m x /\ (m <= 31 -> rejects m x (v_differ (h_analysis h))) /\
     (if verbose then exists s, h_said h = Some s /\ true_of (Nat.min (m - 2) 29) x s else h_said h = None)) /\
  compared o rows m (h_wins h) /\
  (if verbose then exists M, h_matrix h = Some M /\ matrix_of o rows m names srt M else h_matrix h = None).

(** the rows of the systems, with a value for each speaker *)
Definition systems_rows (P : list (list Q)) (m : nat) : list (list Q) := map (sys P) (seq 0 m).
