(** What the segments of two alignment paths must account for. *)
From Coq Require Import List Arith ZArith QArith Bool.
From Verif Require Import NetDp_Model Word_Model Scores_Model Scores_Spec Mapsswe_Model.
Import ListNotations.
Local Open Scope nat_scope.

(** the steps of a path that are errors, and those with a reference word *)
Definition is_error (s : step word) : bool := match snd s with PCorr => false | _ => true end.
Definition has_ref (s : step word) : bool := match snd s with PIns => false | _ => true end.
Definition errors (l : list (step word)) : nat := length (filter is_error l).
Definition refs (l : list (step word)) : nat := length (filter has_ref l).
(** the steps at positions [a] to [b - 1] *)
Definition part (a b : nat) (l : list (step word)) : list (step word) := firstn (b - a) (skipn a l).

Definition error_at (l : list (step word)) (i : nat) : Prop := exists s, nth_error l i = Some s /\ snd s <> PCorr.
Definition correct_at (l : list (step word)) (i : nat) : Prop := exists s, nth_error l i = Some s /\ snd s = PCorr.
Definition all_correct (l : list (step word)) (a b : nat) : Prop := forall i, a <= i < b -> correct_at l i.

(** how many segments contain the position in the first, or second, path *)
Definition cover1 (i : nat) (segs : list seg) : nat := length (filter (fun s => (sg_beg1 s <=? i) && (i <? sg_end1 s)) segs).
Definition cover2 (i : nat) (segs : list seg) : nat := length (filter (fun s => (sg_beg2 s <=? i) && (i <? sg_end2 s)) segs).
Fixpoint total (f : seg -> nat) (segs : list seg) : nat := match segs with [] => 0 | s :: r => f s + total f r end.

(** a segment of the two paths with [mg] correct words as its border *)
Record proper_segment (l1 l2 : list (step word)) (mg : nat) (s : seg) : Prop := {
  ps_bounds1 : sg_beg1 s <= sg_end1 s <= length l1;
  ps_bounds2 : sg_beg2 s <= sg_end2 s <= length l2;
  ps_err1 : sg_err1 s = errors (part (sg_beg1 s) (sg_end1 s) l1);
  ps_err2 : sg_err2 s = errors (part (sg_beg2 s) (sg_end2 s) l2);
  ps_ref : sg_ref s = (refs (part (sg_beg1 s) (sg_end1 s) l1) + refs (part (sg_beg2 s) (sg_end2 s) l2)) / 2;
  ps_some : 0 < sg_err1 s + sg_err2 s;
  ps_begin1 : sg_beg1 s = 0 \/ all_correct l1 (sg_beg1 s) (sg_beg1 s + mg);
  ps_begin2 : sg_beg2 s = 0 \/ all_correct l2 (sg_beg2 s) (sg_beg2 s + mg);
  ps_end : (mg <= sg_end1 s /\ all_correct l1 (sg_end1 s - mg) (sg_end1 s)
            /\ mg <= sg_end2 s /\ all_correct l2 (sg_end2 s - mg) (sg_end2 s))
           \/ sg_end1 s = length l1 /\ sg_end2 s = length l2
}.

(** the segment with the two systems exchanged *)
Definition swap_seg (s : seg) : seg :=
  {| sg_beg1 := sg_beg2 s; sg_end1 := sg_end2 s; sg_beg2 := sg_beg1 s; sg_end2 := sg_end1 s;
     sg_ref := sg_ref s; sg_err1 := sg_err2 s; sg_err2 := sg_err1 s |}.

(** the matched pairs statistic on the differences of the segments' errors *)
Definition difference (s : seg) : Z := (Z.of_nat (sg_err1 s) - Z.of_nat (sg_err2 s))%Z.
Definition sum_q (l : list Q) : Q := fold_right Qplus 0%Q l.
Definition mean_of (l : list Z) : Q := (sum_q (map inject_Z l) / inject_Z (Z.of_nat (length l)))%Q.
Definition squares (l : list Z) : Q := sum_q (map (fun z => (inject_Z z - mean_of l) * (inject_Z z - mean_of l))%Q l).
(** the sample variance *)
Definition variance (l : list Z) : Q := (squares l / (inject_Z (Z.of_nat (length l)) - 1))%Q.

(** the sentence of the second system compared with the given one: the first kept with the same
    speaker and identifier *)
Definition partner (cs2 : list call) (c : call) : option call :=
  find (fun d => kept_of d && (same (speaker_of c) (speaker_of d) && same (s_id (sentence_of c)) (s_id (sentence_of d)))) cs2.
Fixpoint sum (l : list nat) : nat := match l with [] => 0 | x :: r => x + sum r end.
Definition errors_of (c : call) : nat := errors (s_steps (sentence_of c)).
(** the errors of the first, and second, system in the compared sentences *)
Definition compared1 (cs1 cs2 : list call) : nat :=
  sum (map (fun c => match partner cs2 c with Some _ => errors_of c | None => 0 end) (filter kept_of cs1)).
Definition compared2 (cs1 cs2 : list call) : nat :=
  sum (map (fun c => match partner cs2 c with Some d => errors_of d | None => 0 end) (filter kept_of cs1)).
