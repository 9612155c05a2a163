(** Model of the tables of asclite, /repo/src/asclite/core/rawsys_reportgenerator.cpp:208-921, with the numbers they
    show, statistics.cpp and rawsys_reportgenerator.h.

    What is simplified: doubles are exact rational numbers, and counters do not overflow.  The NCE of a speaker and of
    all speakers is given.  A double that does not fit an int is converted to [junk], whatever it is (the C++ standard
    leaves it open): so are NaN, of which the standard deviation of one value is one, and the logarithm of zero. *)
From Coq Require Import String List ZArith NArith Arith Bool QArith.
From Verif Require Import Base Store_Model Sgml_Model Stats_Model Pad_Model Rep_Model.
Import ListNotations.
Local Open Scope res_scope.
Local Open Scope Z_scope.
Local Notation length := List.length.

(** ** The order of std::map *)
(** std::string::compare, by unsigned bytes *)
Fixpoint before (a b : str) : bool :=
  match a, b with
  | _, [] => false
  | [], _ :: _ => true
  | x :: a, y :: b => (x <? y)%N || ((x =? y)%N && before a b)
  end.
Fixpoint place {V} (e : str * V) (l : list (str * V)) : list (str * V) :=
  match l with [] => [e] | f :: r => if before (fst f) (fst e) then f :: place e r else e :: l end.
Definition by_name {V} (m : smap V) : list (str * V) := fold_right place [] m.

Section Table.
(** m_RawSys == 1, the property align.speakeroptimization, and the conversions that are left open *)
Variables (raw inc : bool) (junk : Z).

(** ** Numbers *)
Definition to_int (z : Z) : Z := if (- 2 ^ 31 <=? z) && (z <? 2 ^ 31) then z else junk.
Definition trunc (x : Q) : Z := Z.quot (Qnum x) (Zpos (Qden x)).
(** rawsys_reportgenerator.h:28-31 F_ROUND, in units of the last decimal, and rawsys_reportgenerator.cpp:173-184 *)
Definition f_round (p : nat) (x : Q) : Z :=
  to_int (trunc (x * inject_Z (10 ^ Z.of_nat p) + (if Qle_bool x 0 then - (1 # 2) else 1 # 2))).
Definition real (p : nat) (x : Q) : str := fixed p (f_round p x).
(** the same for the square root of a number, and for NaN *)
Definition root (p : nat) (v : option Q) : str :=
  fixed p (match v with
           | None => junk
           | Some v => to_int ((Z.sqrt (trunc (v * inject_Z (4 * 100 ^ Z.of_nat p))) + 1) / 2)
           end).
(** rawsys_reportgenerator.cpp:186-193 *)
Definition int (n : nat) : str := int_text (Z.of_nat n).
(** statistics.cpp:49, 61-64: ceil(log(x)/log(10.0)), the least k with x <= 10^k; 0 for those below zero, which is
    less than any width in use *)
Definition log10 (x : Q) : Z :=
  if Qle_bool x 0 then junk
  else if Qle_bool x 1 then 0
  else Z.of_nat (length (nat_text (Z.to_N (- ((- Qnum x) / Zpos (Qden x)) - 1)))).
(** the same for a square root *)
Definition log10_root (v : option Q) : Z :=
  match v with None => junk | Some v => if Qle_bool v 0 then junk else (log10 v + 1) / 2 end.
(** statistics.cpp:36-71 m_MaxSize *)
Definition max_size (l : list Q) (s : stats) : Z :=
  match l with
  | [] => 1
  | _ =>
      let m := fold_left (fun m v => Z.max m (log10 v)) l 0 in
      Z.max (Z.max (Z.max (Z.max m (log10 (st_sum s) + 2)) (log10 (st_mean s) + 2)) (log10_root (st_variance s) + 2)) (log10 (st_median s) + 2)
  end.
Definition statistics (l : list Q) : res (stats * Z) :=
  match compute l with Some s => Ok (s, max_size l s) | None => Undef end.

(** ** Columns *)
(** A column of counts: rawsys_reportgenerator.cpp:324-353, 366-386: the statistics of all speakers, of those with
    reference words and of their percentages *)
Record column := { c_get : datas -> nat; c_all : stats; c_seen : stats; c_pct : stats; c_size : Z }.
Definition count (f : datas -> nat) (d : datas) : Q := qn (f d).
Definition percent (f g : datas -> nat) (d : datas) : Q := (100 * qn (f d) / qn (g d))%Q.
Definition seen (ds : list datas) : list datas := filter (fun d => negb (d_refs d =? 0)%nat) ds.
Definition starred (ds : list datas) : bool := existsb (fun d => (d_refs d =? 0)%nat) ds.
(** rawsys_reportgenerator.cpp:393-413: the width, with a place for a mark *)
Definition column_of (ds : list datas) (f : datas -> nat) : res column :=
  let* (a, za) := statistics (map (count f) ds) in
  let* (b, zb) := statistics (map (count f) (seen ds)) in
  let* (p, _) := statistics (map (percent f d_refs) (seen ds)) in
  Ok {| c_get := f; c_all := a; c_seen := b; c_pct := p;
        c_size := Z.max (Z.max 6 za) zb + (if starred ds then 1 else 0) |}.
Fixpoint columns (ds : list datas) (fs : list (datas -> nat)) : res (list column) :=
  match fs with
  | [] => Ok []
  | f :: r => let* c := column_of ds f in let* cs := columns ds r in Ok (c :: cs)
  end.
(** rawsys_reportgenerator.h:58: GetNumberErrors *)
Definition shown : list (datas -> nat) :=
  [d_corr; d_sub] ++ (if inc then [d_spk] else []) ++ [d_del; d_ins; d_errors].

(** ** Lines *)
Definition text (value justify : string) (w : Z) : res str := add_string_text (bytes value) (bytes justify) w [].
(** " " and a cell *)
Fixpoint cells (l : list (str * Z)) (add : str) : res str :=
  match l with
  | [] => Ok []
  | (v, w) :: r => let* c := add_string_text v (bytes "right") w add in let* cs := cells r add in Ok (bytes " " ++ c ++ cs)
  end.
(** the widths of the first three columns, of those of [shown] and of the errors of segments *)
Record widths := { w_name : Z; w_segs : Z; w_refs : Z; w_cols : list Z; w_serr : Z }.
(** rawsys_reportgenerator.cpp:208-220: the width of the column of the NCE *)
Definition w_nce : Z := 9.
Definition line (w : widths) (just : string) (name segs refs : str) (vals : list str) (add serr nce : str) : res str :=
  let* a := add_string_text name (bytes just) (w_name w) [] in
  let* b := add_string_text segs (bytes "right") (w_segs w) [] in
  let* c := add_string_text refs (bytes "right") (w_refs w) [] in
  let* d := cells (combine vals (w_cols w)) add in
  let* e := add_string_text serr (bytes "right") (w_serr w) [] in
  let* f := add_string_text nce (bytes "middle") w_nce [] in
  Ok (bytes "| " ++ a ++ bytes " | " ++ b ++ bytes " " ++ c ++ bytes " |" ++ d ++ bytes " " ++ e ++ bytes " | " ++ f ++ bytes " |").
(** rawsys_reportgenerator.cpp:415: the width of the table *)
Definition full (w : widths) : Z :=
  19 + (if inc then 1 else 0) + w_name w + w_segs w + w_refs w + fold_right Z.add 0 (w_cols w) + w_serr w + w_nce.
Definition many (c : string) (n : Z) : str := concat (repeat (bytes c) (Z.to_nat n)).
(** rawsys_reportgenerator.cpp:195-200 [AddSeparator], 419-421, 833-835 *)
Definition ruler (e c : string) (w : Z) : str := bytes e ++ many c (w - 2) ++ bytes e.

(** rawsys_reportgenerator.cpp:472-585: the line of a speaker; [nce] is GetNCE *)
Definition speaker_cell (d : datas) (f : datas -> nat) : str :=
  if raw then int (f d) else if (d_refs d =? 0)%nat then int (f d) else real 1 (percent f d_refs d).
Definition speaker_mark (star : bool) (d : datas) : str :=
  if star then (if (d_refs d =? 0)%nat && negb raw then bytes "*" else bytes " ") else [].
Definition qabs_le (x : Q) (b : Q) : bool := Qle_bool x b && Qle_bool (- b) x.
Definition nce_cell (d : datas) (x : Q) : str :=
  if negb (d_refs d =? 0)%nat && qabs_le x 1000 then real 3 x
  else if (d_refs d =? 0)%nat then bytes "#"
  else if Qle_bool x (-1000) then bytes "-inf"
  else bytes "+inf".
Definition speaker_line (w : widths) (star : bool) (name : str) (d : datas) (nce : Q) : res str :=
  line w "left" name (int (d_segs d)) (int (d_refs d)) (map (speaker_cell d) shown) (speaker_mark star d)
    (if raw then int (d_segerrs d) else real 1 (percent d_segerrs d_segs d)) (nce_cell d nce).
Fixpoint speaker_lines (w : widths) (star : bool) (nce : str -> Q) (l : list (str * datas)) : res (list str) :=
  match l with
  | [] => Ok []
  | (n, d) :: r =>
      let* x := speaker_line w star n d (nce n) in
      let* xs := speaker_lines w star nce r in
      Ok (ruler "|" "-" (full w) :: x :: xs)
  end.
(** static_cast<int> of a sum *)
Definition whole (x : Q) : str := int_text (to_int (trunc x)).
(** rawsys_reportgenerator.cpp:587-650: the line of the sums; GetSum(1) is never 0 *)
Definition sum_cell (refs : stats) (c : column) : str :=
  if raw then whole (st_sum (c_all c))
  else real 1 (if Qeq_bool (get true (st_sum refs)) 0 then 0 else 100 * st_sum (c_all c) / get true (st_sum refs))%Q.
Definition sum_line (w : widths) (star : bool) (segs refs serr : stats) (cs : list column) (nce : Q) : res str :=
  line w "left" (bytes (if raw then "Sum" else "Sum/Avg")) (whole (st_sum segs)) (whole (st_sum refs)) (map (sum_cell refs) cs)
    (if star then bytes " " else [])
    (if raw then whole (st_sum serr) else real 1 (100 * st_sum serr / get true (st_sum segs))%Q)
    (real 3 nce).
(** rawsys_reportgenerator.cpp:652-831: the lines of the means, the standard deviations and the medians *)
Definition stat_line (w : widths) (star : bool) (label : string) (show : nat -> stats -> str)
  (segs refs serr pserr : stats) (cs : list column) (nce : stats) : res str :=
  line w "middle" (bytes label) (show 1%nat segs) (show 1%nat refs) (map (fun c => show 1%nat (if raw then c_seen c else c_pct c)) cs)
    (if star then bytes "+" else []) (show 1%nat (if raw then serr else pserr)) (show 3%nat nce).
Definition mean (p : nat) (s : stats) : str := real p (st_mean s).
Definition deviation (p : nat) (s : stats) : str := root p (st_variance s).
Definition median (p : nat) (s : stats) : str := real p (st_median s).
(** rawsys_reportgenerator.cpp:428-465: the line of the titles, without marks *)
Definition title_line (w : widths) : res str :=
  line w "left" (bytes "Speaker") (bytes "#Snt") (bytes "#Wrd")
    (map bytes (["Corr"; "Sub"]%string ++ (if inc then ["SpSub"]%string else []) ++ ["Del"; "Ins"; "Err"]%string)) []
    (bytes "S.Err") (bytes "NCE").
(** rawsys_reportgenerator.cpp:837-843 *)
Definition notes (star : bool) : list str :=
  if star then
    [bytes "* No Reference words for this(these) speaker(s). Word counts supplied";
     bytes "  rather than percents.";
     bytes "# No Reference words for this(these) speaker(s). NCE not computable.";
     bytes "+ Speaker(s) with no reference data is(are) ignored."]
  else [].
(** reportgenerator.cpp:24-32 [GetFileNameFromPath] *)
Fixpoint file_name (path : str) : str :=
  match path with
  | [] => []
  | c :: r => if existsb (N.eqb 47) path then file_name r else path
  end.

(** rawsys_reportgenerator.cpp:316-871: the lines of the table of the speakers [m]; percentages of a speaker without
    segments, which do not occur, are NaN and cannot be sorted *)
Definition table (m : smap datas) (nce : str -> Q) (tnce : Q) (systm : str) : res (list str) :=
  let rows := by_name m in
  let ds := map snd rows in
  if existsb (fun d => (d_segs d =? 0)%nat) ds then Undef else
  let star := starred ds in
  let* (segs, zsegs) := statistics (map (count d_segs) ds) in
  let* (refs, zrefs) := statistics (map (count d_refs) ds) in
  let* (serr, zserr) := statistics (map (count d_segerrs) ds) in
  let* (pserr, zpserr) := statistics (map (percent d_segerrs d_segs) ds) in
  let* (nces, _) := statistics (map (fun r => nce (fst r)) (filter (fun r => negb (d_refs (snd r) =? 0)%nat && qabs_le (nce (fst r)) 1000) rows)) in
  let* cs := columns ds shown in
  let w := {| w_name := fold_left (fun k r => Z.max k (Z.of_nat (length (fst r)))) rows 7; w_segs := Z.max 5 zsegs;
              w_refs := Z.max 6 zrefs; w_cols := map c_size cs; w_serr := Z.max (Z.max 6 zserr) zpserr |} in
  let* top := text "SYSTEM SUMMARY PERCENTAGE by SPEAKER" "middle" (full w) in
  let* sys := add_string_text (file_name systm) (bytes "middle") (full w - 2) [] in
  let* titles := title_line w in
  let* lines := speaker_lines w star nce rows in
  let* sums := sum_line w star segs refs serr cs tnce in
  let* means := stat_line w star "Mean" mean segs refs serr pserr cs nces in
  let* sds := stat_line w star "S.D." deviation segs refs serr pserr cs nces in
  let* medians := stat_line w star "Median" median segs refs serr pserr cs nces in
  Ok ([top; ruler "." "-" (full w); bytes "|" ++ sys ++ bytes "|"; ruler "|" "-" (full w); titles] ++ lines
      ++ [ruler "|" "=" (full w); sums; ruler "|" "=" (full w); means; sds; medians; ruler "'" "-" (full w)] ++ notes star).
End Table.

(** ** The files *)
(** Where a report goes: rawsys_reportgenerator.cpp:876-921 [Generate].  [where_] is 1 for files; [opens] says which
    files can be opened; a report for a file that cannot be opened is written to no file. *)
Inductive dest := File (name : str) | Stdout | Nowhere.
Definition target (raw : bool) (outdir : str) (opens : str -> bool) (where_ : Z) (filename : str) : dest :=
  if where_ =? 1 then
    let ext := bytes (if raw then ".raw" else ".sys") in
    let name := if str_eqb outdir [] then filename ++ ext else outdir ++ bytes "/" ++ file_name filename ++ ext in
    if opens name then File name else Nowhere
  else Stdout.
(** A system: its name in the alignment and its file name.  A report that meets a row without result ends before the
    table (264-268). *)
Fixpoint generate (raw inc : bool) (junk : Z) (outdir : str) (opens : str -> bool) (where_ : Z) (w : world) (al : align)
  (nce : nat -> str -> Q) (tnce : nat -> Q) (k : nat) (systems : list (str * str)) (m : smap datas) : res (list (dest * list str)) :=
  match systems with
  | [] => Ok []
  | (s, f) :: r =>
      let* (m, done) := count_align w s al m in
      let* t := (if done : bool then table raw inc junk m (nce k) (tnce k) s else Ok []) in
      let* ts := generate raw inc junk outdir opens where_ w al nce tnce (S k) r m in
      Ok ((target raw outdir opens where_ f, t) :: ts)
  end.
