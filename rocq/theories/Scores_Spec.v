(** What the speaker groups must hold after a history of scored sentences, and McNemar's table. *)
From Coq Require Import List Arith ZArith NArith QArith Bool.
From Verif Require Import NetDp_Model Word_Model Path_Spec Scores_Model.
Import ListNotations.
Local Open Scope nat_scope.

Definition speaker_of (c : call) : list N := fst (fst c).
Definition sentence_of (c : call) : sentence := snd (fst c).
Definition kept_of (c : call) : bool := snd c.
(** the calls for one speaker *)
Definition calls_of (n : list N) (cs : list call) : list call := filter (fun c => same n (speaker_of c)) cs.
(** the speakers in order of first appearance *)
Fixpoint speakers (cs : list call) : list (list N) :=
  match cs with
  | [] => []
  | c :: r => speaker_of c :: filter (fun n => negb (same (speaker_of c) n)) (speakers r)
  end.
Definition all_steps (cs : list call) : list (step word) := concat (map (fun c => s_steps (sentence_of c)) cs).

Definition is_eval (e : eval) (s : step word) : bool :=
  match snd s, e with PCorr, PCorr | PSub, PSub | PIns, PIns | PDel, PDel => true | _, _ => false end.
Definition number (e : eval) (l : list (step word)) : nat := length (filter (is_eval e) l).
(** the weights of the reference and hypothesis words of the steps *)
Definition wt (w : option word) : Z := match w with Some w => w_weight w | None => 0%Z end.
Fixpoint zsum (l : list Z) : Z := match l with [] => 0%Z | x :: r => (x + zsum r)%Z end.
Definition ref_weight (l : list (step word)) : Z := zsum (map (fun s => wt (fst (fst s))) l).
Definition hyp_weight (l : list (step word)) : Z := zsum (map (fun s => wt (snd (fst s))) l).
Definition of_eval (e : eval) (l : list (step word)) : list (step word) := filter (is_eval e) l.
Definition wrong (x : sentence) : Prop := exists s, In s (s_steps x) /\ snd s <> PCorr.
(** the reference and hypothesis words of the steps *)
Definition ref_words (l : list (step word)) : nat := length (filter (fun s => match fst (fst s) with Some _ => true | None => false end) l).
Definition hyp_words (l : list (step word)) : nat := length (filter (fun s => match snd (fst s) with Some _ => true | None => false end) l).

(** [k] elements of the list satisfy the proposition *)
Inductive count_of {A} (P : A -> Prop) : list A -> nat -> Prop :=
| co_nil : count_of P [] 0
| co_yes x l k : P x -> count_of P l k -> count_of P (x :: l) (S k)
| co_no x l k : ~ P x -> count_of P l k -> count_of P (x :: l) k.

(** the group of one speaker after the calls [cs] for this speaker *)
Record totals (g : grp) (cs : list call) : Prop := {
  t_corr : g_corr g = number PCorr (all_steps cs);
  t_sub : g_sub g = number PSub (all_steps cs);
  t_ins : g_ins g = number PIns (all_steps cs);
  t_del : g_del g = number PDel (all_steps cs);
  t_wref : g_wref g = ref_weight (all_steps cs);
  t_wcorr : g_wcorr g = hyp_weight (of_eval PCorr (all_steps cs));
  t_wins : g_wins g = hyp_weight (of_eval PIns (all_steps cs));
  t_wdel : g_wdel g = ref_weight (of_eval PDel (all_steps cs));
  t_wsub : g_wsub g = (ref_weight (of_eval PSub (all_steps cs)) + hyp_weight (of_eval PSub (all_steps cs)))%Z;
  t_nsent : g_nsent g = length cs;
  t_serr : count_of (fun c => wrong (sentence_of c)) cs (g_serr g)
}.
(** the sentences asked to be kept, in order *)
Definition kept_sentences (cs : list call) : list sentence := map sentence_of (filter kept_of cs).

(** the entries of an array in use *)
Definition entries {A} (p : Path_Model.path A) (l : list A) : Prop :=
  Path_Model.p_num p = length l /\ firstn (length l) (Path_Model.p_pset p) = map Some l.

(** McNemar: a sentence of the first system and one of the second with the same speaker and identifier *)
Definition same_sentence (p : call * call) : Prop :=
  speaker_of (fst p) = speaker_of (snd p) /\ s_id (sentence_of (fst p)) = s_id (sentence_of (snd p)).
Definition first_wrong (p : call * call) : Prop := wrong (sentence_of (fst p)).
Definition second_wrong (p : call * call) : Prop := wrong (sentence_of (snd p)).
(** the number of sentences only the first system, and only the second system, has wrong *)
Definition only_first (cs1 cs2 : list call) (k : nat) : Prop :=
  count_of (fun p => same_sentence p /\ first_wrong p /\ ~ second_wrong p) (list_prod (filter kept_of cs1) (filter kept_of cs2)) k.
Definition only_second (cs1 cs2 : list call) (k : nat) : Prop :=
  count_of (fun p => same_sentence p /\ ~ first_wrong p /\ second_wrong p) (list_prod (filter kept_of cs1) (filter kept_of cs2)) k.
(** the cell of the table for the given outcomes *)
Definition in_cell (wrong1 wrong2 : bool) (cs1 cs2 : list call) (k : nat) : Prop :=
  count_of (fun p => same_sentence p /\ (first_wrong p <-> wrong1 = true) /\ (second_wrong p <-> wrong2 = true))
           (list_prod (filter kept_of cs1) (filter kept_of cs2)) k.
