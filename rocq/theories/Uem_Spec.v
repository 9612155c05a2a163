(** What the evaluation map filter and the gaps mean. *)
From Coq Require Import List ZArith NArith Bool.
From Verif Require Import Base Store_Model Segm_Model Segm_Spec Uem_Model.
Import ListNotations.
Local Open Scope Z_scope.

(** The element is for the channel of the segment and its file name is an initial part of the
    name of the segment's file. *)
Definition concerns (u : uem) (s : rseg) : Prop :=
  (exists rest, r_src s = u_file u ++ rest) /\ r_ch s = u_ch u.
Definition covered (m : list uem) (s : rseg) : Prop :=
  exists u, In u m /\ concerns u s /\ u_from u <= r_start s /\ r_end s <= u_to u.
Definition mid_covered (m : list uem) (s : rseg) : Prop :=
  exists u, In u m /\ concerns u s /\ u_from u <= Z.quot (r_start s + r_end s) 2 <= u_to u.

(** [kept p all rest]: [rest] is [all] without the elements that fail [p], in the same order. *)
Inductive kept (p : rseg -> Prop) : list rseg -> list rseg -> Prop :=
| kept_nil : kept p [] []
| kept_yes : forall s l r, p s -> kept p l r -> kept p (s :: l) (s :: r)
| kept_no : forall s l r, ~ p s -> kept p l r -> kept p (s :: l) r.

(** The unit of time from [t] to [t + 1] belongs to an interval. *)
Definition within (t a b : Z) : Prop := a <= t < b.

(** Elements for exactly this file and channel. *)
Definition map_at (m : list uem) (f c : str) : list uem :=
  filter (fun u => str_eqb (u_file u) f && str_eqb (u_ch u) c) m.
Definition disjoint_map (m : list uem) : Prop :=
  Forall (fun u => u_from u < u_to u) m /\
  ForallOrdPairs (fun u v => u_to u <= u_from v \/ u_to v <= u_from u) m.

Definition ref_at (refs : list speech) (f c : str) (s : rseg) : Prop :=
  In s (concat refs) /\ r_src s = f /\ r_ch s = c.

(** The hypothesis segments of a place. *)
Definition hyps_at (hyps : list hseg) (f c : str) : list hseg :=
  filter (fun h => str_eqb (r_src (fst h)) f && str_eqb (r_ch (fst h)) c) hyps.

(** The unit of time [t] of the place lies in one of the gaps. *)
Definition in_gap (gs : list gap) (f c : str) (t : Z) : Prop :=
  exists k, In k gs /\ k_src k = f /\ k_ch k = c /\ within t (k_from k) (k_to k).
Definition in_ref (refs : list speech) (f c : str) (t : Z) : Prop :=
  exists s, ref_at refs f c s /\ within t (r_start s) (r_end s).
Definition in_element (m : list uem) (f c : str) (t : Z) : Prop :=
  exists u, In u (map_at m f c) /\ within t (u_from u) (u_to u).

(** Gaps have positive length, are at places with references, and two different ones of a
    place have no time in common. *)
Definition tidy (refs : list speech) (gs : list gap) : Prop :=
  (forall k, In k gs -> k_from k < k_to k /\ exists s, ref_at refs (k_src k) (k_ch k) s) /\
  (forall k l, In k gs -> In l gs -> k_src k = k_src l -> k_ch k = k_ch l ->
     k = l \/ k_to k <= k_from l \/ k_to l <= k_from k).

(** Start and end times of the reference segments and of the hypothesis words of a place. *)
Definition a_start (refs : list speech) (hyps : list hseg) (f c : str) (t : Z) : Prop :=
  (exists s, ref_at refs f c s /\ r_start s = t) \/
  (exists h e, In h (hyps_at hyps f c) /\ In (t, e) (snd h)).
Definition an_end (refs : list speech) (hyps : list hseg) (f c : str) (t : Z) : Prop :=
  (exists s, ref_at refs f c s /\ r_end s = t) \/
  (exists h b, In h (hyps_at hyps f c) /\ In (b, t) (snd h)).
Definition first_time refs hyps f c (lo : Z) : Prop :=
  a_start refs hyps f c lo /\ forall t, a_start refs hyps f c t -> lo <= t.
Definition last_time refs hyps f c (hi : Z) : Prop :=
  an_end refs hyps f c hi /\ forall t, an_end refs hyps f c t -> t <= hi.

(** The segment and the element have time in common, the segment is not inside the element,
    and they share no border. *)
Definition crosses (s : rseg) (u : uem) : Prop :=
  r_start s < u_to u /\ u_from u < r_end s /\ ~ (u_from u <= r_start s /\ r_end s <= u_to u) /\
  r_start s <> u_from u /\ r_end s <> u_to u.
