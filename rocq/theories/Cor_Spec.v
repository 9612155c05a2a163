(** What the comparison of several systems must show. *)
From Coq Require Import List Arith ZArith NArith QArith Bool.
From Verif Require Import Text_Model Text_Spec NetDp_Model Word_Model Path_Spec Scores_Model Scores_Spec Alex_Model Alex_Spec Cor_Model.
Import ListNotations.
Local Open Scope nat_scope.

(** ** Speakers and sentences in common *)
Definition eqb (a b : list N) : bool := if list_eq_dec N.eq_dec a b then true else false.
(** the sentences of a speaker in a system, if the speaker is there *)
Definition spoken (n : list N) (s : system) : option (list sentence) := option_map snd (find (fun g => eqb (fst g) n) s).
(** the sentence with an identifier, if it is there *)
Definition with_id (i : list N) (ps : list sentence) : option sentence := find (fun p => eqb (s_id p) i) ps.
Fixpoint all {A} (l : list (option A)) : option (list A) :=
  match l with
  | [] => Some []
  | Some x :: r => match all r with Some xs => Some (x :: xs) | None => None end
  | None :: _ => None
  end.
(** the sentences of [ps] that all the [others] have too, each with the ones it corresponds to *)
Definition sets (ps : list sentence) (others : list (list sentence)) : list (list sentence) :=
  flat_map (fun p => match all (map (with_id (s_id p)) others) with Some qs => [p :: qs] | None => [] end) ps.
(** the speakers of the first system up to the first that another system does not have *)
Fixpoint common (s0 : system) (ss : list system) : list (list N * list (list sentence)) :=
  match s0 with
  | [] => []
  | g :: r =>
      match all (map (spoken (fst g)) ss) with
      | Some others => (fst g, sets (snd g) others) :: common r ss
      | None => []
      end
  end.
(** all systems have all the speakers of the first *)
Definition same_speakers (s0 : system) (ss : list system) : Prop :=
  forall g s, In g s0 -> In s ss -> In (fst g) (map fst s).

(** ** The analysis of a set of sentences *)
(** the reference words with whether they were recognised *)
Definition verdicts (l : list (step word)) : list (list N * bool) :=
  flat_map (fun s => match s with (Some a, _, ev) => [(w_value a, match ev with PCorr => true | _ => false end)] | _ => [] end) l.
Definition refs (l : list (step word)) : list (list N) := map fst (verdicts l).
(** the sentence has its [k]-th reference word right *)
Definition right_at (k : nat) (l : list (step word)) : bool := nth k (map snd (verdicts l)) false.
(** the reference words that no system has right *)
Definition missed (ls : list (list (step word))) : list (list N) :=
  let r := refs (hd [] ls) in
  flat_map (fun k => if existsb (right_at k) ls then [] else [nth k r []]) (seq 0 (length r)).
Definition same_reference (ls : list (list (step word))) : Prop := forall l, In l ls -> refs l = refs (hd [] ls).

(** the words of the sentences are strings of the encoding, and their steps are as the alignment makes them *)
Definition good_steps (e : enc) (l : list (step word)) : Prop :=
  Forall well_formed_step l /\ Forall (well_formed e) (refs l).

(** the summary for the sets of sentences [cs], speaker by speaker *)
Record summary_of (e : enc) (cs : list (list (list sentence))) (u : summary) : Prop := {
  su_rows : u_rows u = map (map (fun ps => (ps, Analysis (length (refs (hd [] (map s_steps ps)))) (length (missed (map s_steps ps)))))) cs;
  su_ref : u_ref u = length (flat_map (fun ps => refs (hd [] (map s_steps ps))) (concat cs));
  su_err : u_err u = length (flat_map (fun ps => missed (map s_steps ps)) (concat cs));
  su_acc : match u_acc u with
           | None => u_ref u = 0
           | Some q => 0 < u_ref u /\ (q * inject_Z (Z.of_nat (u_ref u)) == 100 * (inject_Z (Z.of_nat (u_ref u)) - inject_Z (Z.of_nat (u_err u))))%Q
           end;
  su_each : forall w, In w (flat_map (fun ps => missed (map s_steps ps)) (concat cs)) <-> In w (map snd (li_lines (u_list u)));
  su_once : NoDup (map snd (li_lines (u_list u)));
  su_total : li_total (u_list u) = length (li_lines (u_list u));
  su_sum : li_sum (u_list u) = Z.of_nat (u_err u)
}.
