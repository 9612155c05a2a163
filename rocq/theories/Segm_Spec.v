(** What the segmentation into groups means. *)
From Coq Require Import List ZArith Permutation.
From Verif Require Import Base Store_Model Segm_Model.
Import ListNotations.
Local Open Scope Z_scope.

(** Same file and channel. *)
Definition same_place (a b : rseg) : Prop := r_src a = r_src b /\ r_ch a = r_ch b.

(** The two segments have a common time of positive length. *)
Definition overlap (a b : rseg) : Prop := same_place a b /\ r_start a < r_end b /\ r_start b < r_end a.

(** Times of a segment: not negative, positive length, start before the largest int. *)
Definition seg_ok (s : rseg) : Prop := 0 <= r_start s < r_end s /\ r_start s < int_max.

(** Within one speech, the segments of each file and channel are listed by start time. *)
Definition in_time_order (sp : speech) : Prop :=
  ForallOrdPairs (fun a b => same_place a b -> r_start a <= r_start b) sp.

Definition set_ok (set : list speech) : Prop :=
  Forall (fun sp => Forall seg_ok sp /\ in_time_order sp) set.

Definition group_segs (g : group) : list rseg := concat (gp_refs g).

(** A group holds segments of its file and channel inside its interval, begins with the first
    and ends with the last of them, and has no instant strictly inside that is not strictly
    inside one of its segments. *)
Definition group_ok (g : group) : Prop :=
  Forall (fun s => r_src s = gp_src g /\ r_ch s = gp_ch g /\ gp_from g <= r_start s /\ r_end s <= gp_to g) (group_segs g) /\
  (exists s, In s (group_segs g) /\ r_start s = gp_from g) /\
  (exists s, In s (group_segs g) /\ r_end s = gp_to g) /\
  (forall t, gp_from g < t < gp_to g -> exists s, In s (group_segs g) /\ r_start s < t < r_end s).

(** Later groups of the same file and channel start no earlier than the end. *)
Definition in_order (g h : group) : Prop :=
  gp_src g = gp_src h -> gp_ch g = gp_ch h -> gp_to g <= gp_from h.

(** The segments of [set] at the group's place with the middle in its interval, speech by
    speech, without the speeches that have none. *)
Definition chosen (g : group) (s : rseg) : bool :=
  str_eqb (r_src s) (gp_src g) && str_eqb (r_ch s) (gp_ch g) &&
  ((2 * gp_from g <=? r_start s + r_end s) && (r_start s + r_end s <? 2 * gp_to g)).
Definition chosen_of (g : group) (set : list speech) : list (list rseg) :=
  filter (fun l => negb (Nat.eqb (length l) 0)) (map (filter (chosen g)) set).
