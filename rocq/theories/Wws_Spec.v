(** What the word weighted scores are. *)
From Coq Require Import String List Arith ZArith NArith QArith Bool.
From Verif Require Import Base Text_Model Word_Model Store_Model NetDp_Model Path_Model Wwl_Model Wws_Model.
Import ListNotations.
Local Open Scope nat_scope.

(** A step of an alignment has the words its kind needs, and [v] is what [W] finds they weigh. *)
Definition known (W : list N -> res Z) (v : list N -> Z) (s : wstep) : Prop :=
  match s with
  | (Some a, _, PCorr) | (Some a, _, PDel) => W (w_value a) = Ok (v (w_value a))
  | (Some a, Some b, PSub) => W (w_value a) = Ok (v (w_value a)) /\ W (w_value b) = Ok (v (w_value b))
  | (_, Some b, PIns) => W (w_value b) = Ok (v (w_value b))
  | _ => False
  end.
(** The words on the reference side and on the hypothesis side of the steps of some kinds *)
Definition texts (side : wstep -> option word) (kind : eval -> bool) (p : list wstep) : list (list N) :=
  flat_map (fun s => if kind (snd s) then match side s with Some w => [w_value w] | None => [] end else []) p.
Definition ref_side (s : wstep) : option word := fst (fst s).
Definition hyp_side (s : wstep) : option word := snd (fst s).
Definition is_corr (k : eval) := match k with PCorr => true | _ => false end.
Definition is_sub (k : eval) := match k with PSub => true | _ => false end.
Definition is_ins (k : eval) := match k with PIns => true | _ => false end.
Definition is_del (k : eval) := match k with PDel => true | _ => false end.
Definition sum (v : list N -> Z) (ws : list (list N)) : Z := fold_right (fun w z => v w + z)%Z 0%Z ws.
(** The weights of the reference words, of the correct ones, of both words of the substitutions, of the
    inserted and of the deleted words *)
Definition score_of (v : list N -> Z) (p : list wstep) : sums :=
  {| u_ref := sum v (texts ref_side (fun k => negb (is_ins k)) p);
     u_corr := sum v (texts ref_side is_corr p);
     u_sub := (sum v (texts ref_side is_sub p) + sum v (texts hyp_side is_sub p))%Z;
     u_ins := sum v (texts hyp_side is_ins p);
     u_del := sum v (texts ref_side is_del p) |}.
(** The number of steps of a kind *)
Definition number (kind : eval -> bool) (p : list wstep) : Z := Z.of_nat (length (filter (fun s => kind (snd s)) p)).
(** The steps of all speakers *)
Definition steps_of (sc : scores) : list wstep := concat (flat_map snd sc).

(** The weightings in their order: their names and what they make of a word *)
Definition weightings (e : enc) (one : bool) (ls : list wwl) : list (list N * (list N -> res Z)) :=
  (if one then [(bytes "Weight 1", fun _ => Ok 1000%Z)] else [])
  ++ flat_map (fun l => combine (l_desc l) (map (fun k => weight e l k) (seq 0 (length (l_desc l))))) ls.

(** [q] is [x] in percent of [r], 0 when there is nothing to compare with *)
Definition is_percent (q : Q) (x r : Z) : Prop :=
  (r = 0%Z -> q == 0)%Q /\ (r <> 0%Z -> q * inject_Z r == 100 * inject_Z x)%Q.
