(** What the numbers of the score reports mean. *)
From Coq Require Import List ZArith QArith Arith Bool.
From Verif Require Import Stats_Spec Summ_Model.
Import ListNotations.
Local Open Scope nat_scope.

(** mean, variance and median of a list by their textbook definitions (Stats_Spec); of no values they
    are all 0, and the variance of one value is 0 *)
Definition describes (s : stat) (l : list Q) : Prop :=
  match l with
  | [] => s_mean s == 0 /\ s_var s == 0 /\ s_median s == 0
  | _ =>
      s_mean s == average l /\
      s_var s == (if length l =? 1 then 0 else sample_variance l) /\
      exists a b, lower_median a l /\ upper_median b l /\ s_median s == (a + b) / 2
  end%Q.
Definition same_stat (s t : stat) : Prop := (s_mean s == s_mean t /\ s_var s == s_var t /\ s_median s == s_median t)%Q.

(** the value in column [k] of a line *)
Definition cell (k : nat) (l : line) : Q := nth k (l_cells l) 0%Q.
Definition with_words (ls : list line) : list line := filter (fun l => negb (l_star l)) ls.
Definition without_words (ls : list line) : list line := filter l_star ls.

(** no word was counted as merged or split *)
Definition plain (g : grp) : Prop := g_mrg g = 0 /\ g_spl g = 0.
(** the numbers of sentences and words are far inside the ints *)
Definition counts_fit (g : grp) : Prop := (Z.of_nat (g_nsent g) < 2 ^ 30)%Z /\ (Z.of_nat (g_corr g + g_sub g + g_del g) < 2 ^ 30)%Z.

(** the speakers with reference words come first except for one, or there is only one speaker without *)
Definition worded (g : grp) : bool := negb (g_corr g + g_sub g + g_del g =? 0).
Definition one_gap (gs : list grp) : Prop :=
  exists a b z, gs = a ++ b ++ z /\ forallb worded a = true /\ forallb (fun g => negb (worded g)) z = true /\
    (forallb worded b = true \/ exists z0 b', b = z0 :: b' /\ worded z0 = false /\ forallb worded b' = true).

(** the number [r] is [x] rounded to [p] digits after the point *)
Definition rounded (p : nat) (x r : Q) : Prop :=
  let u := (1 / inject_Z (10 ^ Z.of_nat p))%Q in
  ((exists z : Z, r == inject_Z z * u) /\ (- (u / 2) <= r - x <= u / 2) /\
  (0 <= x -> 0 <= r) /\ (x <= 0 -> r <= 0) /\
  (* halves are rounded away from zero *)
  (0 < x -> - (u / 2) < r - x) /\ (x < 0 -> r - x < u / 2))%Q.

(** what a column counts *)
Definition counts (g : grp) (c : col) : nat :=
  match c with
  | Corr => g_corr g | Sub => g_sub g | Del => g_del g | Ins => g_ins g | Mrg => g_mrg g | Spl => g_spl g
  | Err => g_sub g + g_del g + g_ins g + g_mrg g + g_spl g
  end.
Definition weights (g : grp) (c : col) : Q :=
  match c with
  | Corr => w_corr g | Sub => w_sub g | Del => w_del g | Ins => w_ins g | Mrg => w_mrg g | Spl => w_spl g
  | Err => w_sub g + w_del g + w_ins g + w_mrg g + w_spl g
  end%Q.
