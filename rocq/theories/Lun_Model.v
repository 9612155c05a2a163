(** Model of the table of the labelled utterance report of several systems, /repo/src/sclite/lur.c:282-438
    [create_N_lur_report]; formats, texts and iterated rows are those of [Lut_Model].

    What is simplified: as in [Lut_Model]; all systems have the labels of the first, in the same order; the counters are
    taken system by system, which has no effect. *)
From Coq Require Import String List ZArith NArith Arith Bool QArith.
From Verif Require Import Base Store_Model Sgml_Model Rpg_Model Summ_Model Lur_Model Lut_Model.
Import ListNotations.
Local Open Scope res_scope.
Local Open Scope nat_scope.

(** sctk.h SCORES: the name of the test; labels, categories and locations as in [Lut_Model]; title and counters, by label and
    speaker, of the systems *)
Record tests := { n_test : str; n_labels : list (str * str); n_cats : list str; n_locs : list (option nat); n_systems : list (str * list (list (nat * nat))) }.
(** lur.c:289-290: the statistics have room for the speakers of the first system *)
Definition room (i : tests) : nat := match n_systems i with y :: _ => length (hd [] (snd y)) | [] => 0 end.
(** lur.c:298, 316: the format of the head of a part *)
Definition stat_fmt (n : nat) : str :=
  bytes "c|" ++ match n with O => [] | S m => bytes "ca" ++ concat (repeat (bytes "aa") m) end.
(** lur.c:363-385: sums and statistics of a label and a system *)
Definition label_totals (qsort : (nat -> nat -> Z) -> list nat -> list nat) (root : Q -> Q) (room : nat) (col : list (nat * nat)) : res totals :=
  let '(pres, (sumr, sume)) := columnN col in
  if room <? length pres then Undef
  else
    let* a := calc_double qsort (map (fun c => nq (fst c)) pres) in
    let* b := calc_double qsort (map (fun c => pct_of (snd c) (fst c)) pres) in
    Ok {| t_ref := fun i => match i with O => nq sumr | 1 => s_mean a | 2 => root (s_var a) | _ => s_median a end;
          t_err := fun i => match i with O => pct_of sume sumr | 1 => s_mean b | 2 => root (s_var b) | _ => s_median b end |}.
(** lur.c:402-408 *)
Definition system_row (locs : list (option nat)) (k : nat) (y : str * list totals) : res op :=
  let* vs := each (fun t => let* a := whole (t_ref t k) in let* b := number (t_err t k) in Ok [a; b]) (snd y) in
  flush (row_fmt locs) (fst y :: concat vs).
(** lur.c:389-396 *)
Definition part_name (k : nat) : str :=
  match k with
  | O => bytes "Set/Subset #Words and System Set/Subset Average Word Error Rate"
  | 1 => bytes "Set/Subset Mean #Words/Speaker and Set/Subset Mean Word Error Rate/Speaker"
  | 2 => bytes "Associated Standard Deviations"
  | _ => bytes "Set/Subset Median #Words/Speaker and Set/Subset Median Word Error Rate/Speaker"
  end.
(** lur.c:397-410: one part *)
Definition part (locs : list (option nat)) (ys : list (str * list totals)) (k : nat) : res (list op) :=
  let* rs := each (system_row locs k) ys in
  Ok ([Separation (if k =? 2 then 45%N else 61%N) true; Row (stat_fmt (length locs)) (firstn (takes (stat_fmt (length locs))) [[]; part_name k]); Separation 45%N true] ++ rs).
(** lur.c:282-410: the calls; the formats are in arrays of 50 *)
Definition report_ops (qsort : (nat -> nat -> Z) -> list nat -> list nat) (root : Q -> Q) (i : tests) : res (list op) :=
  if 50 <=? length (row_fmt (n_locs i)) then Undef
  else
    let head := [Row (bytes "c") [bytes "By System Test Subset Scoring Summary"]; Row (bytes "c") [bytes "For the " ++ n_test i ++ bytes " Test"]; Separation 32%N true]
                ++ map (fun l => Row (bytes "ccc") [rm_lf (length (fst l)) (fst l); bytes "->"; snd l]) (n_labels i)
                ++ [Separation 32%N false; Row (bytes "ccc") [[]; []; []]; Separation 45%N true] in
    let* cats := match n_cats i with
                 | [] => Ok []
                 | _ => let* r := flush (categ_fmt (n_locs i)) ([] :: n_cats i) in Ok [r; Separation 45%N true]
                 end in
    let* t1 := flush (title_fmt (n_locs i)) (bytes "SYSTEM" :: map fst (n_labels i)) in
    let* t2 := flush (title_fmt (n_locs i)) ([] :: map (fun _ => bytes " #Wrd %WE") (n_labels i)) in
    let* tss := each (fun y => each (label_totals qsort root (room i)) (snd y)) (n_systems i) in
    let* parts := each (part (n_locs i) (combine (map fst (n_systems i)) tss)) (seq 0 4) in
    Ok (head ++ cats ++ [t1; t2] ++ concat parts).
(** lur.c:433 *)
Definition report (qsort : (nat -> nat -> Z) -> list nat -> list nat) (root : Q -> Q) (spread : nat -> nat -> nat -> nat) (page : option nat) (old : nat -> nat -> str) (i : tests) : res (list str) :=
  let* ops := report_ops qsort root i in
  table spread 1 page old ops.
