(** What the labelled utterance report of one system must show.  A table is a list of rows as in [Rpg_Spec]; [rows_shown] there
    says which lines show them. *)
From Coq Require Import String List ZArith NArith Arith Bool QArith.
From Verif Require Import Base Store_Model Sgml_Model Rpg_Spec Uni_Spec Summ_Model Summ_Spec Lut_Model.
Import ListNotations.
Local Open Scope nat_scope.

(** ** Numbers *)
(** How numbers are printed: percentages, and means of numbers of words. *)
Record print := { number : Q -> str; whole : Q -> str }.
(** percentages, as far as their tenths are ints, are rounded to tenths; numbers of words are cut *)
Definition faithful (p : print) : Prop :=
  (forall x, (- inject_Z (2 ^ 31 - 2) <= x * inject_Z 10 <= inject_Z (2 ^ 31 - 2))%Q -> exists k, atof_in 1 (number p x) = Ok k /\ rounded 1 x (inject_Z k / inject_Z 10)%Q)
  /\ (forall x, (0 <= x)%Q -> exists k, whole p x = bytes "[" ++ int_text (Z.of_nat k) ++ bytes "]" /\ (nq k <= x)%Q /\ (x < nq k + 1)%Q).
Definition percent (err ref : nat) : Q := if ref =? 0 then 0%Q else (nq err / nq ref * 100)%Q.

(** ** Columns *)
(** Labels in the same field stand together. *)
Definition alike (a b : option nat) : {a = b} + {a <> b}.
Proof. decide equality. apply Nat.eq_dec. Defined.
(** the bar after a label: none after the last, a double one between fields *)
Definition bar_after (l : option nat) (r : list (option nat)) : N :=
  match r with [] => 32%N | m :: _ => if alike l m then 124%N else 61%N end.
(** [f] gives the two columns of a label; it is told if the label is the first of its field *)
Fixpoint after (f : bool -> N * N) (l : option nat) (r : list (option nat)) : list (N * N) :=
  match r with
  | [] => []
  | m :: r' => let s := if alike l m then false else true in (fst (f s), 32%N) :: (snd (f s), bar_after m r') :: after f m r'
  end.
Definition columns (f : bool -> N * N) (locs : list (option nat)) : list (N * N) :=
  match locs with
  | [] => [(99, 32)]%N
  | l :: r => (99, 124)%N :: (fst (f true), 32%N) :: (snd (f true), bar_after l r) :: after f l r
  end.
(** a title over both columns; two numbers; a title over all labels of a field *)
Definition one_title (first : bool) : N * N := (99, 97)%N.
Definition two_numbers (first : bool) : N * N := (114, 114)%N.
Definition field_title (first : bool) : N * N := if first then (99, 97)%N else (97, 97)%N.
(** the number of runs of labels in the same field *)
Fixpoint runs_after (l : option nat) (r : list (option nat)) : nat :=
  match r with [] => 0 | m :: r' => (if alike l m then 0 else 1) + runs_after m r' end.
Definition runs (locs : list (option nat)) : nat := match locs with [] => 0 | l :: r => S (runs_after l r) end.

(** ** Rows *)
Definition led (c : N) (rows : list srow) : list srow := match rows with [] => [] | r :: rs => under [c] r :: rs end.
Definition three : list (N * N) := [(99, 32); (99, 32); (99, 32)]%N.
(** a text with // made blank *)
Inductive unbroken : str -> str -> Prop :=
| unbroken_nil : unbroken [] []
| unbroken_break s t : unbroken s t -> unbroken (47 :: 47 :: s)%N (32%N :: t)
| unbroken_byte c s t : (forall r, c :: s <> 47 :: 47 :: r)%N -> unbroken s t -> unbroken (c :: s) (c :: t).
Definition legend_row (t d : str) : srow := mkrow three [t; bytes "->"; d].
(** what is said of a speaker with [fst c] words and [snd c] errors *)
Definition about (p : print) (c : nat * nat) : list str :=
  match c with
  | (O, O) => [[]; []]
  | (O, e) => [bytes "0"; bytes "* " ++ int_text (Z.of_nat e) ++ bytes " *"]
  | (r, e) => [bytes "[" ++ int_text (Z.of_nat r) ++ bytes "]"; number p (percent e r)]
  end.
Definition numbers_row (i : input) (name : str) (vals : list str) : srow := mkrow (columns two_numbers (i_locs i)) (name :: vals).
Definition speaker (p : print) (i : input) (k : nat) : srow :=
  under [45%N] (numbers_row i (nth k (i_names i) []) (flat_map (fun col => about p (nth k col (0, 0))) (i_cells i))).
(** what is said of a label: words and percentages *)
Definition total (p : print) (x : Q * Q) : list str := [whole p (fst x); number p (snd x)].
Definition totals_row (p : print) (i : input) (name : str) (f : list (nat * nat) * (stat * stat) -> Q * Q) (sts : list (stat * stat)) : srow :=
  numbers_row i name (flat_map (fun cs => total p (f cs)) (combine (i_cells i) sts)).
Definition words_of (col : list (nat * nat)) : nat := list_sum (map fst col).
Definition errors_of (col : list (nat * nat)) : nat := list_sum (map snd col).
(** a speaker has errors and no words *)
Definition stray (i : input) : bool := existsb (existsb (fun c => (fst c =? 0) && (0 <? snd c))) (i_cells i).
(** the statistics of a label: those of the words and those of the percentages of the speakers with words *)
Definition with_words (col : list (nat * nat)) : list (nat * nat) := filter (fun c => 0 <? fst c) col.
Definition label_stats (col : list (nat * nat)) (st : stat * stat) : Prop :=
  describes (fst st) (map (fun c => nq (fst c)) (with_words col)) /\ describes (snd st) (map (fun c => percent (snd c) (fst c)) (with_words col)).

(** The report; [ts] are the titles of the labels without breaks. *)
Definition lur_rows (p : print) (root : Q -> Q) (i : input) (ts : list str) (sts : list (stat * stat)) : list srow :=
  [mkrow [(99, 32)]%N [bytes "System: " ++ i_title i]]
  ++ led 32 (map (fun td => legend_row (fst td) (snd td)) (combine ts (map snd (i_labels i))) ++ [over [32%N] (mkrow three [[]; []; []])])
  ++ match i_cats i with
     | [] => []
     | cats => [under [45%N] (mkrow (columns field_title (i_locs i)) ([] :: map (fun g => nth g cats []) (seq 0 (runs (i_locs i)))))]
     end
  ++ [under [45%N] (mkrow (columns one_title (i_locs i)) (bytes "SPKR" :: map fst (i_labels i)));
      mkrow (columns one_title (i_locs i)) ([] :: map (fun _ => bytes " #Wrd %WE") (i_labels i))]
  ++ map (speaker p i) (seq 0 (length (i_names i)))
  ++ [under [61%N] (totals_row p i (bytes "Set Sum/Avg") (fun cs => (nq (words_of (fst cs)), percent (errors_of (fst cs)) (words_of (fst cs)))) sts);
      under [45%N] (totals_row p i (if stray i then bytes "Mean +" else bytes "Mean") (fun cs => (s_mean (fst (snd cs)), s_mean (snd (snd cs)))) sts);
      totals_row p i (if stray i then bytes "StdDev +" else bytes "StdDev") (fun cs => (root (s_var (fst (snd cs))), root (s_var (snd (snd cs))))) sts;
      under [32%N] (totals_row p i (bytes "Median") (fun cs => (s_median (fst (snd cs)), s_median (snd (snd cs)))) sts)]
  ++ if stray i then
       [under [45%N] (mkrow [(108, 32)]%N [bytes "Note:  * Speaker Has no reference word tokens.  Number of incorrect words presented"]);
        mkrow [(108, 32)]%N [bytes "       + Speakers with no reference words ignored"]]
     else [].
