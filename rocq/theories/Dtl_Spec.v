(** What the detailed reports must say of the sentences scored. *)
From Coq Require Import List Arith ZArith NArith QArith Bool.
From Verif Require Import Text_Model Text_Spec NetDp_Model Word_Model Scores_Model Scores_Spec Alex_Model Alex_Spec Dtl_Model.
Import ListNotations.
Local Open Scope nat_scope.

(** the words of the steps of a kind *)
Definition inserted (l : list (step word)) : list (list N) :=
  flat_map (fun s => match s with (_, Some b, PIns) => [w_value b] | _ => [] end) l.
Definition deleted (l : list (step word)) : list (list N) :=
  flat_map (fun s => match s with (Some a, _, PDel) => [w_value a] | _ => [] end) l.
(** the reference words and the hypothesis words of the substitutions, side by side *)
Definition substituted (l : list (step word)) : list (list N * list N) :=
  flat_map (fun s => match s with (Some a, Some b, PSub) => [(w_value a, w_value b)] | _ => [] end) l.
(** how a pair is written: the reference word, " ==> ", the hypothesis word *)
Definition arrow : list N := [32; 61; 61; 62; 32]%N.
Definition written (p : list N * list N) : list N := fst p ++ arrow ++ snd p.

(** the words are strings of the encoding, and a written pair fits in a buffer of 10000 bytes *)
Definition text_words (e : enc) (l : list (step word)) : Prop :=
  Forall (fun s => (forall a, fst (fst s) = Some a -> well_formed e (w_value a)) /\ (forall b, snd (fst s) = Some b -> well_formed e (w_value b))) l.
Definition short_pairs (l : list (step word)) : Prop :=
  Forall (fun p => (Z.of_nat (length (written p)) < 10000)%Z) (substituted l).

(** the sentence has a step of the kind *)
Definition with_step (ev : eval) (c : call) : Prop := exists s, In s (s_steps (sentence_of c)) /\ snd s = ev.

Definition rat (n : nat) : Q := inject_Z (Z.of_nat n).
(** [q] is [n] in percent of [d] *)
Definition percentage (n d : nat) (q : Q) : Prop := (q * rat d == 100 * rat n)%Q.
(** a number of sentences with its percentage, 0 when there is no sentence *)
Definition of_sentences (d n : nat) (p : nat * Q) : Prop :=
  fst p = n /\ (0 < d -> percentage n d (snd p)) /\ (d = 0 -> (snd p == 0)%Q).
(** a number of words with its percentage of the reference words, undefined when there are none *)
Definition of_words (d n : nat) (p : nat * option Q) : Prop :=
  fst p = n /\ match snd p with None => d = 0 | Some q => 0 < d /\ percentage n d q end.

(** the report of the sentences [cs], of which [ks] were kept *)
Record reports (e : enc) (cs ks : list call) (r : report) : Prop := {
  rp_sentences : d_sentences r = length cs;
  rp_with : exists w s d i,
    count_of (fun c => wrong (sentence_of c)) cs w /\ count_of (with_step PSub) ks s
    /\ count_of (with_step PDel) ks d /\ count_of (with_step PIns) ks i
    /\ Forall2 (of_sentences (length cs)) [w; s; d; i] (d_with r);
  rp_words : let st := all_steps cs in
    Forall2 (of_words (ref_words st))
      [number PSub st + number PDel st + number PIns st; number PCorr st; number PSub st; number PDel st; number PIns st] (d_words r);
  rp_accuracy : let st := all_steps cs in
    match d_accuracy r with
    | None => ref_words st = 0
    | Some q => 0 < ref_words st /\ (q * rat (ref_words st) == 100 * (rat (ref_words st) - rat (number PSub st + number PDel st + number PIns st)))%Q
    end;
  rp_refs : d_refs r = ref_words (all_steps cs);
  rp_hyps : d_hyps r = hyp_words (all_steps cs);
  rp_aligned : d_aligned r = length (all_steps cs);
  rp_pairs : lists e (map written (substituted (all_steps ks))) (d_pairs r);
  rp_ins : lists e (inserted (all_steps ks)) (d_ins r);
  rp_del : lists e (deleted (all_steps ks)) (d_del r);
  rp_sub : lists e (map fst (substituted (all_steps ks))) (d_sub r);
  rp_false : lists e (map snd (substituted (all_steps ks))) (d_false r)
}.

(** the line of a sentence with the steps [st]; [so_far] are the steps of the speaker up to and with it *)
Definition both (f : list (step word) -> nat) (st so_far : list (step word)) : nat * nat := (f st, f so_far).
Definition errors (l : list (step word)) : nat := number PSub l + number PDel l + number PIns l.
Record line_of (st so_far : list (step word)) (z : sentence_line) : Prop := {
  ln_c : z_c z = both (number PCorr) st so_far;
  ln_s : z_s z = both (number PSub) st so_far;
  ln_d : z_d z = both (number PDel) st so_far;
  ln_n : z_n z = both (number PIns) st so_far;
  ln_err : z_err z = both errors st so_far;
  ln_ref : z_ref z = both ref_words st so_far;
  ln_hyp : z_hyp z = both hyp_words st so_far;
  ln_aligned : z_aligned z = both (@length _) st so_far;
  ln_pct : Forall2 (fun n o => match o with None => ref_words st = 0 | Some q => 0 < ref_words st /\ percentage n (ref_words st) q end)
             [number PCorr st; number PSub st; number PDel st; number PIns st; errors st] (z_pct z)
}.
