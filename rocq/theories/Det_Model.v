(** The confidence graphs of sclite and sc_stats, /repo/src/sclite/det.c: the DET curve and the three
    histograms.  Doubles are exact rationals.  The files the graphs are written to and the commands for
    GNUPLOT are not modelled, only the numbers written. *)
From Coq Require Import List Arith ZArith QArith Qround Bool.
From Verif Require Import Base Order_Model.
From Verif Require Stats_Model.
Import ListNotations.
Local Open Scope res_scope.
Local Open Scope nat_scope.

(** path.h:1-6: the verdict on a step of an alignment *)
Inductive eval := Corr | Sub | Ins | Del | Mrg | Spl.
(** a step: its verdict and, where it is not a deletion, whether the hypothesis word is the empty one
    (optionally deletable) and its confidence *)
Record step := { s_eval : eval; s_empty : bool; s_conf : Q }.
(** an utterance: whether it has confidences, attribute PA_HYP_CONF, and its steps *)
Record upath := { u_conf : bool; u_steps : list step }.
Definition scores := list (list upath).

Definition is_del (e : eval) : bool := match e with Del => true | _ => false end.
Definition is_corr (e : eval) : bool := match e with Corr => true | _ => false end.

(** det.c:7-17 [hyp_confidences_available]: the utterances without confidences are counted *)
Definition conf_available (sc : scores) : bool :=
  length (filter (fun p => negb (u_conf p)) (concat sc)) =? 0.

(** an array of doubles; None is a cell that was not written yet *)
Definition darr := list (option Q).
(** memory.h:67-72 [alloc_singZ] with 0.0 *)
Definition zeros (n : nat) : darr := repeat (Some 0%Q) n.
(** det.c:82-84 and 87-90, with memory.h:159-167 [expand_singarr]: a full array is replaced by one of
    double size, whose new cells are not initialised *)
Definition push (a : darr) (n max : nat) (x : Q) : res (darr * nat * nat) :=
  let '(a, max) := if max <=? n then (firstn n a ++ repeat None (2 * max - n), 2 * max) else (a, max) in
  let* a := set a n (Some x) in
  Ok (a, S n, max).

(** the arrays of the confidences of the correct and of the wrong words, their lengths, their sizes *)
Record state := { d_targ : darr; d_nt : nat; d_maxt : nat; d_non : darr; d_nn : nat; d_maxn : nat }.

(** det.c:80-92: a step of an alignment *)
Definition collect_step (st : state) (x : step) : res state :=
  match s_eval x, s_empty x with
  | Corr, false =>
      let* r := push (d_targ st) (d_nt st) (d_maxt st) (s_conf x) in
      let '(a, n, m) := r in
      Ok {| d_targ := a; d_nt := n; d_maxt := m; d_non := d_non st; d_nn := d_nn st; d_maxn := d_maxn st |}
  | Sub, _ | Ins, _ =>
      let* r := push (d_non st) (d_nn st) (d_maxn st) (s_conf x) in
      let '(a, n, m) := r in
      Ok {| d_targ := d_targ st; d_nt := d_nt st; d_maxt := d_maxt st; d_non := a; d_nn := n; d_maxn := m |}
  | _, _ => Ok st
  end.
Fixpoint collect (st : state) (l : list step) : res state :=
  match l with
  | [] => Ok st
  | x :: r => let* st := collect_step st x in collect st r
  end.
(** det.c:75-95: the loops over the groups, their utterances and their steps *)
Definition all_steps (sc : scores) : list step := concat (map u_steps (concat sc)).

(** the first [n] cells, which qsort reads *)
Fixpoint vals (n : nat) (a : darr) : res (list Q) :=
  match n, a with
  | O, _ => Ok []
  | S n', Some x :: a' => let* r := vals n' a' in Ok (x :: r)
  | S _, _ => Undef
  end.
Definition cell (a : darr) (i : nat) : res Q :=
  let* o := get a i in
  match o with Some x => Ok x | None => Undef end.
(** det.c:179 *)
Definition smax : Q := inject_Z (9 * 10 ^ 99).
(** det.c:194-200: the sort and the mark at the end *)
Definition sorted_marked (a : darr) (n : nat) : res darr :=
  let* v := vals n a in
  set (map Some (Stats_Model.qsort v) ++ skipn n a) n (Some smax).

(** A number of words out of a total; None for a total of zero, where C gives a NaN or an infinity. *)
Definition frac (a : Z) (n : nat) : option Q :=
  if n =? 0 then None else Some (inject_Z a / inject_Z (Z.of_nat n))%Q.
(** A point of the curve before the change of scale [ppndf] (det.c:262-303, not modelled). *)
Definition point := (option Q * option Q)%type.
(** det.c:177-178: the point the table starts with *)
Definition first_point : point := (Some (5 # 10000), Some (5 # 10)).

(** det.c:208-229: the loop.  [rows] is the table Pdet, whose size bounds the number of steps. *)
Fixpoint roc_loop (fuel : nat) (t f : darr) (nt nf ntrue nfalse npts : nat) (rows : list point)
  : res (list point) :=
  if (ntrue <? nt) || (nfalse <? nf) then
    match fuel with
    | O => NoFuel
    | S k =>
        let* a := cell t ntrue in
        let* b := cell f nfalse in
        let c := Qle_bool a b && (ntrue <? nt) in
        let ntrue := if c : bool then ntrue + 1 else ntrue in
        let nfalse := if c : bool then nfalse else nfalse + 1 in
        let npts := npts + 1 in
        let* rows := set rows npts (frac (Z.of_nat (ntrue - 1)) nt,
                                    frac (Z.of_nat nf - Z.of_nat (nfalse - 1)) nf) in
        roc_loop k t f nt nf ntrue nfalse npts rows
    end
  else Ok rows.
(** det.c:187-230 [Compute_ROC] *)
Definition compute_roc (t : darr) (nt : nat) (f : darr) (nf : nat) (rows : list point) : res (list point) :=
  let* t := sorted_marked t nt in
  let* f := sorted_marked f nf in
  let* rows := set rows 0 first_point in
  roc_loop (length rows) t f nt nf 1 1 0 rows.

(** det.c:72-112: the curve of one system; [nt], [maxt], [nn] and [maxn] are kept from the system
    before.  The result has the lines written. *)
Definition curve (nt maxt nn maxn : nat) (sc : scores) : res (list point * (nat * nat * nat * nat)) :=
  let* st := collect {| d_targ := zeros maxt; d_nt := nt; d_maxt := maxt;
                        d_non := zeros maxn; d_nn := nn; d_maxn := maxn |} (all_steps sc) in
  let n := d_nt st + d_nn st in
  let* rows := compute_roc (d_targ st) (d_nt st) (d_non st) (d_nn st) (repeat (Some 0%Q, Some 0%Q) n) in
  Ok (firstn (n - 1) rows, (d_nt st, d_maxt st, d_nn st, d_maxn st)).
Fixpoint curves (nt maxt nn maxn : nat) (l : list scores) : res (list (list point)) :=
  match l with
  | [] => Ok []
  | sc :: r =>
      let* c := curve nt maxt nn maxn sc in
      let '(p, (nt, maxt, nn, maxn)) := c in
      let* q := curves nt maxt nn maxn r in
      Ok (p :: q)
  end.
(** det.c:19-137 [make_SCORES_DET_curve]; [cap] is the size of the arrays, 10000 at lines 22 and 23;
    [feedback] says whether messages are printed, which is when confidences are looked for; None: no
    curve is made *)
Definition make_det (cap : nat) (feedback : bool) (l : list scores) : res (option (list (list point))) :=
  match l with
  | [] => if feedback then Undef else Ok (Some [])
  | sc :: _ =>
      if feedback && negb (conf_available sc) then Ok None
      else let* c := curves 0 cap 0 cap l in Ok (Some c)
  end.

(** ** The histograms *)
(** the words of the histograms, det.c:490-491 and 598-599: every step but deletions and empty words *)
Definition counted (x : step) : bool := negb (is_del (s_eval x)) && negb (s_empty x).
Definition words (sc : scores) : list step := filter counted (all_steps sc).

(** a bin: the words that are correct and those that are not *)
Definition hist := list (nat * nat).
(** conversion of a double to int drops the fraction; outside the range of int it is undefined *)
Definition to_int (q : Q) : res Z :=
  let z := if Qle_bool 0 q then Qfloor q else Qceiling q in
  if (-(2 ^ 31) <=? z)%Z && (z <? 2 ^ 31)%Z then Ok z else Undef.
(** det.c:600-613: a word goes to its bin or is counted as out of range.  The range is 0.0 to 1.0 in
    both uses (det.c:340 and 413). *)
Definition bin_word (nbin : nat) (st : hist * nat) (x : step) : res (hist * nat) :=
  let '(h, errs) := st in
  let d := ((s_conf x - 0) / 1 * inject_Z (Z.of_nat nbin))%Q in
  let* i := to_int d in
  let i := if Qle_bool d (inject_Z (Z.of_nat nbin)) && (i =? Z.of_nat nbin)%Z
           then (Z.of_nat nbin - 1)%Z else i in
  if (i <? 0)%Z || (Z.of_nat nbin <=? i)%Z then Ok (h, S errs)
  else
    let* c := get h (Z.to_nat i) in
    let* h := set h (Z.to_nat i) (if is_corr (s_eval x) then (S (fst c), snd c) else (fst c, S (snd c))) in
    Ok (h, errs).
Fixpoint bin_words (nbin : nat) (st : hist * nat) (l : list step) : res (hist * nat) :=
  match l with
  | [] => Ok st
  | x :: r => let* st := bin_word nbin st x in bin_words nbin st r
  end.
(** det.c:582-620 [binned_confidences]: the counts of the bins and the number of words out of range *)
Definition binned (nbin : nat) (sc : scores) : res (hist * nat) :=
  bin_words nbin (repeat (0, 0) nbin, 0) (words sc).
(** det.c:627-631: the percentage of the correct words of a bin *)
Definition pct_corr (c : nat * nat) : Q :=
  if (fst c + snd c =? 0) then 0%Q
  else (inject_Z (Z.of_nat (fst c)) / inject_Z (Z.of_nat (fst c + snd c)) * 100)%Q.
(** the lines of a histogram with 100 bins, det.c:349-356: the lower and the upper end of each bin, each
    with all, correct and incorrect words.  [b] is the first bin. *)
Fixpoint hist_lines (nbin b : nat) (h : hist) : list (Q * nat * nat * nat) :=
  match h with
  | [] => []
  | (c, i) :: r =>
      (* [from] and [to] as at det.c:589-590 stand in the cells H_FROM and H_TO *)
      let from := (inject_Z (Z.of_nat b) * (1 / inject_Z (Z.of_nat nbin)))%Q in
      let to := (inject_Z (Z.of_nat (b + 1)) * (1 / inject_Z (Z.of_nat nbin)))%Q in
      (from, c + i, c, i) :: (to, c + i, c, i) :: hist_lines nbin (b + 1) r
  end.
(** det.c:321-392 [make_confidence_histogram]; None: nothing written *)
Definition make_histogram (feedback : bool) (sc : scores) : res (option (list (Q * nat * nat * nat))) :=
  if feedback && negb (conf_available sc) then Ok None
  else let* r := binned 100 sc in Ok (Some (hist_lines 100 0 (fst r))).
(** det.c:422-424: the middle of each bin of ten and the percentage of correct words in it *)
Fixpoint binned_lines (b : nat) (h : hist) : list (Q * Q) :=
  match h with
  | [] => []
  | c :: r => ((inject_Z (Z.of_nat b) * (1 # 10) + (5 # 100))%Q, pct_corr c) :: binned_lines (b + 1) r
  end.
(** det.c:394-458 [make_binned_confidence] *)
Definition make_binned (feedback : bool) (sc : scores) : res (option (list (Q * Q))) :=
  if feedback && negb (conf_available sc) then Ok None
  else let* r := binned 10 sc in Ok (Some (binned_lines 0 (fst r))).

(** ** The histogram with bins of equal numbers of words *)
(** the words by increasing confidence (sort_double_arr, order.c:94-107).  The order of words with equal
    confidences is not specified for qsort; here it is an insertion sort. *)
Fixpoint insert_word (x : step) (l : list step) : list step :=
  match l with
  | [] => [x]
  | y :: r => if Qle_bool (s_conf x) (s_conf y) then x :: l else y :: insert_word x r
  end.
Fixpoint sort_words (l : list step) : list step :=
  match l with [] => [] | x :: r => insert_word x (sort_words r) end.
(** what is summed over a bin: correct, wrong, least and greatest confidence, det.c:513-521 *)
Fixpoint sum_bin (l : list step) (corr err : nat) (mn mx : Q) : nat * nat * Q * Q :=
  match l with
  | [] => (corr, err, mn, mx)
  | x :: r =>
      let mn := if Qle_bool mn (s_conf x) then mn else s_conf x in
      let mx := if Qle_bool (s_conf x) mx then mx else s_conf x in
      if is_corr (s_eval x) then sum_bin r (corr + 1) err mn mx else sum_bin r corr (err + 1) mn mx
  end.
(** a line, det.c:522-523: the middle of the bin, the percentage of correct words, the width *)
Definition scaled_line (l : list step) : Q * Q * Q :=
  let '(corr, err, mn, mx) := sum_bin l 0 0 99999 (- (999999 # 10)) in
  ((mn + mx) / 2, inject_Z (Z.of_nat corr) / inject_Z (Z.of_nat (err + corr)) * 100, mx - mn)%Q.
(** det.c:511-530: the loop over the bins; [q] is nword / bins.  The result has the words of each bin. *)
Fixpoint scaled_loop (fuel : nat) (s : list step) (q l b : nat) : res (list (list step)) :=
  if (l <? b) && (l <? length s) then
    match fuel with
    | O => NoFuel
    | S k =>
        if length s <? b then Undef      (* the array would be read beyond its words *)
        else
        let bin := firstn (b - l) (skipn l s) in
        let b' := b + q in
        let b' := if length s <? b' + q then length s else b' in
        let* r := scaled_loop k s q b b' in
        Ok (bin :: r)
    end
  else Ok [].
(** det.c:461-579 [make_scaled_binned_confidence] *)
Definition scaled_bins (bins : nat) (sc : scores) : res (list (list step)) :=
  let s := sort_words (words sc) in
  if bins =? 0 then Undef
  else scaled_loop (S (length s)) s (length s / bins) 0 (length s / bins).
Definition make_scaled (feedback : bool) (bins : nat) (sc : scores) : res (option (list (Q * Q * Q))) :=
  if feedback && negb (conf_available sc) then Ok None
  else let* r := scaled_bins bins sc in Ok (Some (map scaled_line r)).
