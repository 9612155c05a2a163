(** Normalised cross entropy. *)
From Coq Require Import List QArith Reals Qreals Arith Bool.
From Verif Require Import Nce_Model.
Import ListNotations.
Local Open Scope R_scope.

(** the words of a group: steps with a word on the side of the hypothesis that is not empty *)
Definition scored (t : step) : bool := match t_eval t with Del => false | _ => negb (t_empty t) end.
Definition right (t : step) : bool := match t_eval t with Corr => true | _ => false end.
Definition words (gs : list group) : list step := filter scored (concat (concat (map u_paths gs))).
Definition correct (gs : list group) : list Q := map t_conf (filter right (words gs)).
Definition incorrect (gs : list group) : list Q := map t_conf (filter (fun t => negb (right t)) (words gs)).
(** the counters of a group agree with its paths *)
Definition consistent (g : group) : Prop :=
  u_corr g = length (correct [g]) /\ (u_sub g + u_ins g)%nat = length (incorrect [g]).

Definition log2 (x : R) : R := ln x / ln 2.
(** the confidence as a probability, kept 10^-7 away from 0 and 1 *)
Definition low : Q := (1 # 10000000)%Q.
Definition high : Q := (9999999 # 10000000)%Q.
Definition used (x : Q) (r : R) : Prop :=
  (x <= low /\ r = Q2R low)%Q \/ (low <= x <= high /\ r = Q2R x)%Q \/ (high <= x /\ r = Q2R high)%Q.
Fixpoint rsum (l : list R) : R := match l with [] => 0 | x :: l => x + rsum l end.
(** the entropy in bits of the verdicts when [n] words are correct and [m] are not *)
Definition bits (n m : nat) : R :=
  let p := INR n / (INR n + INR m) in - (INR n * log2 p + INR m * log2 (1 - p)).
(** [x] is the normalised cross entropy of the confidences [cs] of correct and [is] of incorrect words *)
Definition is_nce (cs is : list Q) (x : R) : Prop :=
  exists rc ri, Forall2 used cs rc /\ Forall2 used is ri /\
    x = (bits (length cs) (length is) + rsum (map log2 rc) + rsum (map (fun r => log2 (1 - r)) ri)) / bits (length cs) (length is).
(** a value of the report: a number if some words are correct and some are not *)
Definition value_of (cs is : list Q) (v : option R) : Prop :=
  match v with
  | Some x => cs <> [] /\ is <> [] /\ is_nce cs is x
  | None => cs = [] \/ is = []
  end.
(** a confidence outside of 0 to 1 *)
Definition outside (t : step) : bool := negb (Qle_bool 0 (t_conf t) && Qle_bool (t_conf t) 1).
(** the values of the speakers: 0 for one without words *)
Definition speaker_value (g : group) (v : option R) : Prop :=
  (words [g] = [] /\ v = Some 0) \/ (words [g] <> [] /\ value_of (correct [g]) (incorrect [g]) v).
