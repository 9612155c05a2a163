(** Percentages, ranks and orders of systems and speakers. *)
From Coq Require Import List ZArith QArith Qabs NArith Arith Bool Permutation Sorted.
From Verif Require Import Order_Model Rank_Model Stats_Spec.
Import ListNotations.
Local Open Scope nat_scope.

Definition q (n : nat) : Q := inject_Z (Z.of_nat n).
(** the reference words of a speaker and the errors of the system in them *)
Definition words (k : speaker) : nat := k_corr k + k_sub k + k_del k.
Definition errors (k : speaker) : nat := k_sub k + k_del k + k_ins k.
(** [x] is the percentage asked for: words recognised, word errors or 100 minus word errors; for a speaker
    without words nothing is recognised and there are no errors *)
Definition rate (n : nat) (k : speaker) (x : Q) : Prop :=
  if words k =? 0 then (x == 0)%Q else (x * q (words k) == 100 * q n)%Q.
Definition is_percentage (f : formula) (k : speaker) (x : Q) : Prop :=
  match f with
  | FR => rate (k_corr k) k x
  | FE => rate (errors k) k x
  | FW => rate (errors k) k (100 - x)
  | Fother => False
  end.
(** the best comes first: the lowest error or the highest accuracy *)
Definition best_first (f : formula) : order := match f with FE => Increasing | _ => Decreasing end.

(** an array of positions lists values in order *)
Definition in_order (o : order) (a b : Q) : Prop := match o with Increasing => (a <= b)%Q | Decreasing => (b <= a)%Q end.
Definition lists_in_order (o : order) (v : list Q) (ptr : list nat) : Prop :=
  Permutation ptr (seq 0 (length v)) /\ StronglySorted (fun i j => in_order o (nth i v 0%Q) (nth j v 0%Q)) ptr.
(** the rank of [x] among [v]: the values better than it come first, and it shares the next ranks with
    its equals *)
Definition better (o : order) (x y : Q) : bool := match o with Increasing => negb (Qle_bool x y) | Decreasing => negb (Qle_bool y x) end.
Definition rank_in (o : order) (v : list Q) (x : Q) : Q :=
  (q (length (filter (better o x) v)) + (q (length (filter (Qeq_bool x) v)) + 1) / 2)%Q.

Definition sum (l : list Q) : Q := fold_right Qplus 0%Q l.
Definition greatest (l : list Q) (x : Q) : Prop := Exists (fun y => (y == x)%Q) l /\ Forall (fun y => (y <= x)%Q) l.
Definition least (l : list Q) (x : Q) : Prop := Exists (fun y => (y == x)%Q) l /\ Forall (fun y => (x <= y)%Q) l.

(** every system was scored on the speakers [names], in this order *)
Definition scored_on (names : list (list N)) (ss : list system) : Prop := Forall (fun s => map k_name (y_grps s) = names) ss.

(** The percentages of all systems: [P] has a row for each speaker, with a value for each system. *)
Definition table_of (f : formula) (ss : list system) (n_spk : nat) (P : list (list Q)) : Prop :=
  length P = n_spk /\
  forall i, i < n_spk -> length (nth i P []) = length ss /\
    forall j s k, nth_error ss j = Some s -> nth_error (y_grps s) i = Some k -> is_percentage f k (nth j (nth i P []) 0%Q).
(** the values of one speaker and of one system *)
Definition spk (P : list (list Q)) (i : nat) : list Q := nth i P [].
Definition sys (P : list (list Q)) (j : nat) : list Q := map (fun row => nth j row 0%Q) P.
(** a table of [n] rows of [m] values *)
Definition shape (n m : nat) (P : list (list Q)) : Prop := length P = n /\ forall i, i < n -> length (nth i P []) = m.
(** the RANK structure holds the table [P]: names and titles, for each speaker the ranks of the systems, for
    each system the ranks of the speakers, and both in the order of their sums *)
Definition ranked (o : order) (names titles : list (list N)) (P : list (list Q)) (r : rank) : Prop :=
  r_n_blk r = length names /\ r_n_trt r = length titles /\
  r_blk_name r = map Some names /\ r_trt_name r = titles /\
  r_pcts r = map (map Some) P /\
  shape (length names) (length titles) (r_trt_ranks r) /\ shape (length titles) (length names) (r_blk_ranks r) /\
  (forall i j, i < length names -> j < length titles ->
     (nth j (nth i (r_trt_ranks r) []) 0 == rank_in o (spk P i) (nth j (spk P i) 0))%Q /\
     (nth i (nth j (r_blk_ranks r) []) 0 == rank_in o (sys P j) (nth j (spk P i) 0))%Q) /\
  lists_in_order o (map (fun j => sum (sys P j)) (seq 0 (length titles))) (r_blk_srt_ind r) /\
  lists_in_order o (map (fun i => sum (spk P i)) (seq 0 (length names))) (r_trt_srt_ind r).

(** ** Range tables *)
(** the numbers of a line about the values [v]: mean and standard deviation, the highest and the lowest.
    Error rates and percentages correct are never negative, percentages correct and accuracies never over 100;
    otherwise one of the values must be. *)
Definition shows (sqrt : Q -> Q) (f : formula) (v : list Q) (a : range) : Prop :=
  (a_mean a == average v)%Q /\
  (exists var, a_dev a = sqrt var /\ (var == if length v =? 1 then 0 else sample_variance v)%Q) /\
  (f <> FW \/ Exists (fun x => (0 <= x)%Q) v -> greatest v (a_high a)) /\
  (f <> FE \/ Exists (fun x => (x <= 100)%Q) v -> least v (a_low a)).
(** [x] lies within half a column of [j] *)
Definition near (scale : nat) (x j : Q) : Prop := (Qabs (x - j) < q scale / 2 + (1 # 10000))%Q.
(** the mark of the column of [j] percent: the mean, one standard deviation from it, outside the range, inside it *)
Definition drawn (scale : nat) (a : range) (j : Q) (m : mark) : Prop :=
  let dev := near scale (a_mean a + a_dev a)%Q j \/ near scale (a_mean a - a_dev a)%Q j in
  match m with
  | Bar => near scale (a_mean a) j
  | Plus => ~ near scale (a_mean a) j /\ dev
  | Blank => ~ near scale (a_mean a) j /\ ~ dev /\ (a_high a < j \/ j < a_low a)%Q
  | Dash => ~ near scale (a_mean a) j /\ ~ dev /\ (a_low a <= j <= a_high a)%Q
  end.
Definition range_shown (sqrt : Q -> Q) (f : formula) (scale : nat) (name : list N) (v : list Q) (e : range_line) : Prop :=
  e_name e = name /\ shows sqrt f v (e_range e) /\
  length (e_graph e) = 100 / scale + 1 /\
  forall k m, nth_error (e_graph e) k = Some m -> drawn scale (e_range e) (q (k * scale)) m.

(** ** GNUPLOT files *)
Definition plotted (pos : nat) (name : list N) (v : list Q) (e : entry) : Prop :=
  n_pos e = pos /\ n_label e = name /\ n_points e = v /\ (n_mean e == average v)%Q /\
  exists a b, lower_median a v /\ upper_median b v /\ (n_median e == (a + b) / 2)%Q.
(** the entries are at the positions 1, 2, ... in the order [ptr] *)
Definition plots (ptr : list nat) (names : list (list N)) (vals : nat -> list Q) (es : list entry) : Prop :=
  length es = length ptr /\
  forall k i, nth_error ptr k = Some i -> exists e, nth_error es k = Some e /\ plotted (k + 1) (nth i names []) (vals i) e.
