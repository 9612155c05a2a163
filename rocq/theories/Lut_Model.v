(** Model of the table of the labelled utterance report of one system, /repo/src/sclite/lur.c:130-280 [create_report].  The calls
    are those of [Rpg_Model], the counters those of [Lur_Model], the statistics those of [Summ_Model].

    What is simplified: doubles are exact fractions, and the cast to float in F_ROUND is not modelled; the square root of the
    variance is given.  No report before had more than 50 columns.  Titles and descriptions are lists of bytes other than 0.
    The counters have a place for every label and speaker. *)
From Coq Require Import String List ZArith NArith Arith Bool QArith.
From Verif Require Import Base Store_Model Sgml_Model Rpg_Model Summ_Model Lur_Model.
Import ListNotations.
Local Open Scope res_scope.
Local Open Scope nat_scope.

(** sctk.h SCORES and lur.c:8-16: the title of the system; title and description of the labels; titles of the categories; the
    names of the speakers; the location of each label; the counters by label and speaker *)
Record input := { i_title : str; i_labels : list (str * str); i_cats : list str; i_names : list str; i_locs : list (option nat); i_cells : list (list (nat * nat)) }.

(** ** Formats *)
(** lur.c:148, 160: comparison of two locations; None is -1 *)
Definition same_loc (a b : option nat) : bool :=
  match a, b with Some x, Some y => x =? y | None, None => true | _, _ => false end.
(** lur.c:146-163: for every label the bar before it and its columns; [cell] is told if the label starts a category *)
Fixpoint labels_fmt (cell : bool -> str) (prev : option (option nat)) (locs : list (option nat)) : str :=
  match locs with
  | [] => []
  | l :: r =>
      let differs := match prev with Some p => negb (same_loc l p) | None => false end in
      let starts := match prev with Some p => negb (same_loc l p) | None => true end in
      (if differs then bytes "=" else bytes "|") ++ cell starts ++ labels_fmt cell (Some l) r
  end.
(** lur.c:143-166: the three formats *)
Definition title_fmt (locs : list (option nat)) : str := bytes "c" ++ labels_fmt (fun _ => bytes "ca") None locs.
Definition row_fmt (locs : list (option nat)) : str := bytes "c" ++ labels_fmt (fun _ => bytes "rr") None locs.
Definition categ_fmt (locs : list (option nat)) : str := bytes "c" ++ labels_fmt (fun s => if s then bytes "ca" else bytes "aa") None locs.
(** rpg.c:974-980: the columns that take a value *)
Definition takes (fmt : str) : nat := length (filter (fun c => negb ((c =? 97) || (c =? 124) || (c =? 61))%N) fmt).
(** rpg.c:876-938: a row made value by value; values that are not given are empty, values for which there is no column are not
    shown *)
Definition flush (fmt : str) (vals : list str) : res op :=
  if 60 <? length vals then Exit
  else if existsb (fun v => 2000 <=? length v) vals then Undef
  else Ok (Row fmt (firstn (takes fmt) (vals ++ repeat [] (50 - length vals)))).

(** ** Texts *)
(** rpg.c:1020-1046 [Desc_rm_lf] *)
Fixpoint rm_lf (fuel : nat) (s : str) : str :=
  match fuel with
  | O => []
  | S k => match s with
           | [] => []
           | c :: r => if negb (c =? 47)%N then c :: rm_lf k r
                       else match r with
                            | d :: r2 => if (d =? 47)%N then 32%N :: rm_lf k r2 else c :: rm_lf k r
                            | [] => [c]
                            end
           end
  end.
(** sctk.h:45 for two ints *)
Definition pct_of (err ref : nat) : Q := if ref =? 0 then 0%Q else (nq err / nq ref * 100)%Q.
(** lur.c:207-209, 264: "%.1f" of a number that has one decimal: its tenths *)
Definition tenths (x : Q) : Z := trunc (x * inject_Z 10).
Definition number (x : Q) : res str := let* r := f_round x 1 in Ok (fixed 1 (tenths r)).
(** lur.c:263 "[%d]" of a double cut to an int *)
Definition whole (x : Q) : res str := if in_int (trunc x) then Ok (bytes "[" ++ int_text (trunc x) ++ bytes "]") else Undef.

(** ** Rows *)
(** a loop that may fail *)
Fixpoint each {A B} (f : A -> res B) (l : list A) : res (list B) :=
  match l with [] => Ok [] | x :: r => let* y := f x in let* ys := each f r in Ok (y :: ys) end.
(** lur.c:203-220: the two values of a label and a speaker *)
Definition values (c : nat * nat) : res (list str) :=
  let '(ref, err) := c in
  if negb (ref =? 0) then let* p := number (pct_of err ref) in Ok [bytes "[" ++ int_text (Z.of_nat ref) ++ bytes "]"; p]
  else if negb (err =? 0) then Ok [int_text (Z.of_nat ref); bytes "* " ++ int_text (Z.of_nat err) ++ bytes " *"]
  else Ok [[]; []].
(** lur.c:199-222 *)
Definition speaker_row (i : input) (k : nat) : res (list op) :=
  let* vs := each (fun col => values (nth k col (0, 0))) (i_cells i) in
  let* r := flush (row_fmt (i_locs i)) (nth k (i_names i) [] :: concat vs) in
  Ok [Separation 45%N true; r].
(** lur.c:210-215: a speaker with errors and no words *)
Definition null_speaker (i : input) : bool :=
  existsb (fun col => existsb (fun c => (fst c =? 0) && negb (snd c =? 0)) col) (i_cells i).
(** lur.c:225-246: sums and statistics of a label; [root] is sqrt *)
Record totals := { t_ref : nat -> Q; t_err : nat -> Q }.
Definition label_totals (qsort : (nat -> nat -> Z) -> list nat -> list nat) (root : Q -> Q) (col : list (nat * nat)) : res totals :=
  let '(pres, (sumr, sume)) := column1 col in
  let* a := calc_double qsort (map (fun c => nq (fst c)) pres) in
  let* b := calc_double qsort (map (fun c => pct_of (snd c) (fst c)) pres) in
  let* e := f_round (pct_of sume sumr) 1 in
  Ok {| t_ref := fun i => match i with O => nq sumr | 1 => s_mean a | 2 => root (s_var a) | _ => s_median a end;
        t_err := fun i => match i with O => e | 1 => s_mean b | 2 => root (s_var b) | _ => s_median b end |}.
(** lur.c:249-267 *)
Definition total_row (i : input) (ts : list totals) (name : str) (k : nat) : res op :=
  let* vs := each (fun t => let* a := whole (t_ref t k) in let* b := number (t_err t k) in Ok [a; b]) ts in
  flush (row_fmt (i_locs i)) (name :: concat vs).
(** lur.c:130-273: the calls; the formats are in arrays of 50 *)
Definition report_ops (qsort : (nat -> nat -> Z) -> list nat -> list nat) (root : Q -> Q) (i : input) : res (list op) :=
  if 50 <=? length (row_fmt (i_locs i)) then Undef
  else
    let head := [Row (bytes "c") [bytes "System: " ++ i_title i]; Separation 32%N true]
                ++ map (fun l => Row (bytes "ccc") [rm_lf (length (fst l)) (fst l); bytes "->"; snd l]) (i_labels i)
                ++ [Separation 32%N false; Row (bytes "ccc") [[]; []; []]; Separation 45%N true] in
    let* cats := match i_cats i with
                 | [] => Ok []
                 | _ => let* r := flush (categ_fmt (i_locs i)) ([] :: i_cats i) in Ok [r; Separation 45%N true]
                 end in
    let* t1 := flush (title_fmt (i_locs i)) (bytes "SPKR" :: map fst (i_labels i)) in
    let* t2 := flush (title_fmt (i_locs i)) ([] :: map (fun _ => bytes " #Wrd %WE") (i_labels i)) in
    let* body := each (speaker_row i) (seq 0 (length (i_names i))) in
    let* ts := each (label_totals qsort root) (i_cells i) in
    let null := null_speaker i in
    let* r0 := total_row i ts (bytes "Set Sum/Avg") 0 in
    let* r1 := total_row i ts (if null then bytes "Mean +" else bytes "Mean") 1 in
    let* r2 := total_row i ts (if null then bytes "StdDev +" else bytes "StdDev") 2 in
    let* r3 := total_row i ts (bytes "Median") 3 in
    Ok (head ++ cats ++ [t1; t2] ++ concat body ++ [Separation 61%N true; r0; Separation 45%N true; r1; r2; Separation 32%N true; r3]
        ++ if null then [Separation 45%N true; Row (bytes "l") [bytes "Note:  * Speaker Has no reference word tokens.  Number of incorrect words presented"];
                         Row (bytes "l") [bytes "       + Speakers with no reference words ignored"]] else []).
(** lur.c:275: the report on the page an earlier report has set *)
Definition report (qsort : (nat -> nat -> Z) -> list nat -> list nat) (root : Q -> Q) (spread : nat -> nat -> nat -> nat) (page : option nat) (old : nat -> nat -> str) (i : input) : res (list str) :=
  let* ops := report_ops qsort root i in
  table spread 1 page old ops.
