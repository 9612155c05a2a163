(** What the checks and filters of the inputs mean. *)
From Coq Require Import List ZArith NArith Bool.
From Verif Require Import Base Store_Model Segm_Model Segm_Spec Uem_Model Uem_Spec Filt_Model.
Import ListNotations.
Local Open Scope list_scope.

Definition same_place (s t : rseg) : Prop := r_src s = r_src t /\ r_ch s = r_ch t.
(** time in common at the same place *)
Definition overlapping (s t : rseg) : Prop := same_place s t /\ (r_start s < r_end t)%Z /\ (r_start t < r_end s)%Z.
(** a speech as a file gives it: each segment lasts, the segments of a place follow one another, in order of time *)
Definition ordered (sp : speech) : Prop :=
  Forall (fun s => (r_start s < r_end s)%Z) sp /\
  (forall a s b t c, sp = a ++ s :: b ++ t :: c -> same_place s t -> Forall (same_place s) b /\ (r_start s <= r_start t)%Z).
Definition self_overlapping (sp : speech) : Prop := exists a s b t c, sp = a ++ s :: b ++ t :: c /\ overlapping s t.
(** the sides a filter is for *)
Definition for_refs (w : str) : Prop := w = REF \/ w = BOTH.
Definition for_hyps (w : str) : Prop := w = HYP \/ w = BOTH.
(** all speeches of the systems *)
Definition speeches (hyps : list (str * list speech)) : list speech := flat_map snd hyps.
(** a list of speeches with only the segments that satisfy [p] *)
Definition reduced (p : rseg -> Prop) (all rest : list speech) : Prop := Forall2 (kept p) all rest.
Definition reduced_systems (p : rseg -> Prop) (all rest : list (str * list speech)) : Prop :=
  Forall2 (fun a b => fst a = fst b /\ reduced p (snd a) (snd b)) all rest.
Definition distinct (l : list speech) : Prop := Forall (fun sp => NoDup (map r_id sp)) l.
(** a reference segment that an element of the map cuts *)
Definition cut (m : list uem) (refs : list speech) : Prop := exists sp s u, In sp refs /\ In s sp /\ In u m /\ concerns u s /\ crosses s u.
Definition cut_out (m : list uem) (refs : list speech) : Prop := exists sp s u, In sp refs /\ In s sp /\ In u m /\ concerns u s /\ crosses s u /\ ~ covered m s.
(** the filters of a run of asclite: self-overlaps first *)
Definition chosen (auto eval : bool) : list filt := (if auto then [Auto] else []) ++ (if eval then [Evaluation] else []).
(** the segments of a system that stay: those whose middle is in the map, or, without references, those inside it *)
Definition stays (m : list uem) (o : origin) : rseg -> Prop := match o with IsHyp => mid_covered m | _ => covered m end.
Definition lasting (l : list speech) : Prop := Forall (Forall (fun s => (r_start s < r_end s)%Z)) l.
(** what holds of the inputs that are scored *)
Record clean (m : list uem) (use_file isg has : bool) (o : origin) (side : filt -> str) (auto eval : bool) (times : nat -> list (Z * Z))
    (check : bool) (sm : smap str) (name : nat -> str) (refs : list speech) (hyps : list (str * list speech))
    (refs' : list speech) (hyps' : list (str * list speech)) (gaps : list gap) : Prop := {
  (** no self-overlap on the sides that are checked *)
  c_refs_alone : auto = true -> for_refs (side Auto) -> forall sp, In sp refs -> ordered sp -> ~ self_overlapping sp;
  c_hyps_alone : auto = true -> for_hyps (side Auto) -> forall sp, In sp (speeches hyps) -> ordered sp -> ~ self_overlapping sp;
  (** exactly the segments of the map on the sides it is for *)
  c_refs_in : eval = true -> for_refs (side Evaluation) -> reduced (covered m) refs refs' /\ ~ cut_out m refs;
  c_refs_all : eval = false \/ ~ for_refs (side Evaluation) -> refs' = refs;
  c_hyps_in : eval = true -> for_hyps (side Evaluation) -> reduced_systems (stays m o) hyps hyps' /\ (o = IsGen -> ~ cut_out m (speeches hyps));
  c_hyps_all : eval = false \/ ~ for_hyps (side Evaluation) -> hyps' = hyps;
  (** the gaps of what is left *)
  c_gaps : if eval && isg && negb has then make_gaps m use_file refs' (map (fun s => (s, times (r_id s))) (concat (speeches hyps'))) = Ok gaps else gaps = [];
  (** the map of speakers *)
  c_map : check = true -> exists r h, In r (concat refs') /\ In h (concat (speeches hyps')) /\ same_place r h /\
            get_ref sm (r_src r) (r_ch r) (name (r_id r)) = name (r_id h) }.
