(** What the labelled utterance report of several systems must show.  Columns, numbers and labels are those of [Lut_Spec]. *)
From Coq Require Import String List ZArith NArith Arith Bool QArith.
From Verif Require Import Base Store_Model Sgml_Model Rpg_Spec Uni_Spec Summ_Model Summ_Spec Lut_Spec Lun_Model.
Import ListNotations.
Local Open Scope nat_scope.

(** the speakers with words or errors, and the statistics of a label of a system over them: a speaker without words counts with
    0 percent *)
Definition heard (col : list (nat * nat)) : list (nat * nat) := filter (fun c => (0 <? fst c) || (0 <? snd c)) col.
Definition stats_of (col : list (nat * nat)) (st : stat * stat) : Prop :=
  describes (fst st) (map (fun c => nq (fst c)) (heard col)) /\ describes (snd st) (map (fun c => percent (snd c) (fst c)) (heard col)).

(** ** Rows *)
Definition head_cols (n : nat) : list (N * N) := ((99, 124) :: (99, 32) :: repeat (97, 32) (2 * n - 1))%N.
(** the numbers of a system *)
Definition numbers (p : print) (locs : list (option nat)) (f : list (nat * nat) * (stat * stat) -> Q * Q) (ysts : (str * list (list (nat * nat))) * list (stat * stat)) : srow :=
  mkrow (columns two_numbers locs) (fst (fst ysts) :: flat_map (fun cs => total p (f cs)) (combine (snd (fst ysts)) (snd ysts))).
(** a part: its name, below a line of [c], and the systems in their order *)
Definition section (p : print) (i : tests) (stss : list (list (stat * stat))) (c : N) (name : str) (f : list (nat * nat) * (stat * stat) -> Q * Q) : list srow :=
  under [c] (mkrow (head_cols (length (n_locs i))) [[]; name]) :: led 45 (map (numbers p (n_locs i) f) (combine (n_systems i) stss)).
Definition lurN_rows (p : print) (root : Q -> Q) (i : tests) (ts : list str) (stss : list (list (stat * stat))) : list srow :=
  [mkrow [(99, 32)]%N [bytes "By System Test Subset Scoring Summary"]; mkrow [(99, 32)]%N [bytes "For the " ++ n_test i ++ bytes " Test"]]
  ++ led 32 (map (fun td => legend_row (fst td) (snd td)) (combine ts (map snd (n_labels i))) ++ [over [32%N] (mkrow three [[]; []; []])])
  ++ match n_cats i with
     | [] => []
     | cats => [under [45%N] (mkrow (columns field_title (n_locs i)) ([] :: map (fun g => nth g cats []) (seq 0 (runs (n_locs i)))))]
     end
  ++ [under [45%N] (mkrow (columns one_title (n_locs i)) (bytes "SYSTEM" :: map fst (n_labels i)));
      mkrow (columns one_title (n_locs i)) ([] :: map (fun _ => bytes " #Wrd %WE") (n_labels i))]
  ++ section p i stss 61 (bytes "Set/Subset #Words and System Set/Subset Average Word Error Rate")
       (fun cs => (nq (words_of (fst cs)), percent (errors_of (fst cs)) (words_of (fst cs))))
  ++ section p i stss 61 (bytes "Set/Subset Mean #Words/Speaker and Set/Subset Mean Word Error Rate/Speaker")
       (fun cs => (s_mean (fst (snd cs)), s_mean (snd (snd cs))))
  ++ section p i stss 45 (bytes "Associated Standard Deviations")
       (fun cs => (root (s_var (fst (snd cs))), root (s_var (snd (snd cs)))))
  ++ section p i stss 61 (bytes "Set/Subset Median #Words/Speaker and Set/Subset Median Word Error Rate/Speaker")
       (fun cs => (s_median (fst (snd cs)), s_median (snd (snd cs)))).
