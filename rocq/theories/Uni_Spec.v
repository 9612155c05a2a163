(** What the unified report of the significance tests and the matrix of the McNemar test must show.  A table is a list
    of rows as in [Rpg_Spec]; [rows_shown] there says which lines show them. *)
From Coq Require Import String List ZArith NArith Arith Bool QArith.
From Verif Require Import Base Store_Model Sgml_Model Rpg_Spec Sig_Model Sig_Spec.
Import ListNotations.
Local Open Scope nat_scope.

(** ** Probabilities *)
(** the number x, but for the rounding of constants *)
Definition close (p x : Q) : Prop := (x - (1 # 100000000000000000) <= p /\ p <= x + (1 # 100000000000000000))%Q.
(** [v] reads as a number of thousandths nearest to the probability *)
Definition nearest_to (q : Q) (v : str) : Prop :=
  exists k, atof_in 3 v = Ok k /\ (inject_Z 1000 * q - (1 # 2) <= inject_Z k /\ inject_Z k <= inject_Z 1000 * q + (1 # 2))%Q.
(** How probabilities are printed: [number] gives the probability, [stars] its significance. *)
Record print := { number : Q -> str; stars : Q -> str }.
Definition faithful (p : print) : Prop :=
  exists l001 l01 l05, close l001 (1 # 1000) /\ close l01 (1 # 100) /\ close l05 (1 # 20)
  /\ forall q : Q,
       (q < l001 -> number p q = bytes "<0.001")%Q /\ (l001 <= q -> nearest_to q (number p q))%Q
       /\ (q <= l001 -> stars p q = bytes "***")%Q /\ (l001 < q -> q <= l01 -> stars p q = bytes "**")%Q
       /\ (l01 < q -> q <= l05 -> stars p q = bytes "*")%Q /\ (l05 < q -> stars p q = [])%Q.

(** ** The unified report *)
Definition mkrow (cols : list (N * N)) (vals : list str) : srow := {| s_cols := cols; s_vals := vals; s_before := []; s_after := [] |}.
Definition under (b : list N) (r : srow) : srow := {| s_cols := s_cols r; s_vals := s_vals r; s_before := b ++ s_before r; s_after := s_after r |}.
Definition over (a : list N) (r : srow) : srow := {| s_cols := s_cols r; s_vals := s_vals r; s_before := s_before r; s_after := s_after r ++ a |}.
(** a line over all columns *)
Definition across (n : nat) (v : str) : srow := mkrow ((99, 32) :: repeat (97, 32) (3 * n + 2))%N [v].
(** the abbreviation and the system, three columns for each of [n] systems, the abbreviation *)
Definition bar (left : nat) : N := match left with O => 61%N | S _ => 124%N end.
Fixpoint threes (a b c : N) (n : nat) : list (N * N) :=
  match n with O => [] | S n => [(a, 32); (b, 32)]%N ++ (c, bar n) :: threes a b c n end.
Definition grid_cols (a b c : N) (n : nat) : list (N * N) := [(99, 61); (99, bar n)]%N ++ threes a b c n ++ [(99, 32)]%N.
(** what a test says of systems [s] and [t] *)
Definition who (names : list str) (w : Z) (s t : nat) : str :=
  match w with Z0 => bytes "~" | Zneg _ => nth s names [] | Zpos _ => nth t names [] end.
Definition about (p : print) (names : list str) (k : test) (s t : nat) : list str :=
  if s <? t then [who names (t_win k s t) s t; number p (t_conf k s t); stars p (t_conf k s t)] else [[]; []; []].
Definition test_row (p : print) (names : list str) (s : nat) (i : nat) (k : test) : srow :=
  under (if i =? 0 then [45%N] else [])
    (mkrow (grid_cols 114 114 108 (length names))
       ([t_id k; if i =? 0 then nth s names [] else []] ++ flat_map (about p names k s) (seq 0 (length names)) ++ [t_id k])).
Definition number_from {A} (i : nat) (l : list A) : list (nat * A) := combine (seq i (length l)) l.
Definition system_row (p : print) (names : list str) (tests : list test) (s : nat) : list srow :=
  map (fun ik => test_row p names s (fst ik) (snd ik)) (number_from 0 tests).
Definition names_row (names : list str) : srow :=
  under [45%N] (mkrow (grid_cols 99 97 97 (length names)) ([bytes "Test//Abbrev."; []] ++ names ++ [bytes "Test//Abbrev."])).
(** the last line of the legend is followed by two empty ones *)
Fixpoint legend_rows (n : nat) (ls : list str) : list srow :=
  match ls with
  | [] => []
  | [l] => [over [32; 32]%N (across n l)]
  | l :: ls => across n l :: legend_rows n ls
  end.
(** [h] and [g] are the head of the legend, [ls] its lines, [rs] the remarks *)
Definition unified_rows (p : print) (testname : str) (names : list str) (tests : list test) (h g : str) (ls rs : list str) : list srow :=
  let n := length names in
  [across n (bytes "Composite Report of All Significance Tests"); across n (bytes "For the " ++ testname ++ bytes " Test");
   under [32%N] (across n h); across n g] ++ legend_rows n ls
  ++ [names_row names] ++ flat_map (system_row p names tests) (seq 0 n)
  ++ match rs with r :: rs => under [45%N] (across n r) :: map (across n) rs | [] => [] end.

(** ** The matrix of the McNemar test *)
Fixpoint ones (n : nat) : list (N * N) := match n with O => [(99, 32)]%N | S n => (99, 124)%N :: ones n end.
Definition mcn_about (p : print) (conf : nat -> nat -> Q) (s t : nat) : str :=
  if s <? t then bytes "Conf=(" ++ number p (conf s t) ++ bytes ")" else [].
Definition mcn_who (names : list str) (win : nat -> nat -> Z) (s t : nat) : str := if s <? t then better (win s t) (nth s names []) (nth t names []) else [].
Definition mcn_system (p : print) (names : list str) (win : nat -> nat -> Z) (conf : nat -> nat -> Q) (s : nat) : list srow :=
  let n := length names in
  [under [45%N] (mkrow (ones n) (nth s names [] :: map (mcn_about p conf s) (seq 0 n)));
   mkrow (ones n) ([] :: map (mcn_who names win s) (seq 0 n))].
Definition mcn_shows (p : print) (matrix_name tname : str) (names : list str) (win : nat -> nat -> Z) (conf : nat -> nat -> Q) : list srow :=
  [mkrow [(99, 32)]%N [matrix_name]; over [32; 45]%N (mkrow [(99, 32)]%N [tname]); mkrow (ones (length names)) ([] :: names)]
  ++ flat_map (mcn_system p names win conf) (seq 0 (length names)).
(** here a probability below one thousandth is shown as one *)
Definition floored (p : print) : Prop :=
  exists l001, close l001 (1 # 1000) /\ forall q : Q, (l001 <= q -> nearest_to q (number p q))%Q /\ (q < l001 -> nearest_to l001 (number p q))%Q.
