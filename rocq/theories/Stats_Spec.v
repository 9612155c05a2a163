(** Textbook definitions. *)
From Coq Require Import List QArith Arith Bool.
Import ListNotations.
Local Open Scope Q_scope.

Definition qlen (l : list Q) : Q := inject_Z (Z.of_nat (List.length l)).
Definition qtotal (l : list Q) : Q := fold_right Qplus 0 l.
Definition average (l : list Q) : Q := qtotal l / qlen l.
(** Mean of the squared deviations, with n - 1. *)
Definition sample_variance (l : list Q) : Q :=
  qtotal (map (fun x => (x - average l) * (x - average l)) l) / (qlen l - 1).
Definition below (m : Q) (l : list Q) : nat := List.length (filter (fun x => negb (Qle_bool m x)) l).
Definition above (m : Q) (l : list Q) : nat := List.length (filter (fun x => negb (Qle_bool x m)) l).
(** The value in the middle: at most half of the values are below it and at most half above. *)
Definition in_middle (m : Q) (l : list Q) : Prop :=
  (2 * below m l <= List.length l)%nat /\ (2 * above m l <= List.length l)%nat.
(** The two values in the middle of the sorted values (the same one for an odd number). *)
Definition lower_median (a : Q) (l : list Q) : Prop :=
  In a l /\ (2 * below a l < List.length l)%nat /\ (2 * above a l <= List.length l)%nat.
Definition upper_median (b : Q) (l : list Q) : Prop :=
  In b l /\ (2 * above b l < List.length l)%nat /\ (2 * below b l <= List.length l)%nat.
Definition between (m : Q) (l : list Q) : Prop :=
  exists a b, In a l /\ In b l /\ a <= m /\ m <= b /\ Forall (fun x => a <= x /\ x <= b) l.
