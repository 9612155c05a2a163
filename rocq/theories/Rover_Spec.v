(** Voting, independently of the program. *)
From Coq Require Import List Arith ZArith NArith QArith Qminmax.
From Verif Require Import Text_Model Text_Spec Word_Model Word_Spec Rover_Model.
Import ListNotations.

(** What a system proposes at a position: a text, its times and its confidence. *)
Record ballot := { b_text : list N; b_t1 : Z; b_t2 : Z; b_conf : Q }.

(** The ballot an arc stands for; fragments are not scored by ROVER. *)
Definition casts (e : enc) (a : varc) (b : ballot) : Prop :=
  let w := v_word (snd a) in
  good_word e w /\ w_frag w = false /\ text_is w (b_text b) /\
  w_t1 w = b_t1 b /\ w_t2 w = b_t2 b /\ v_conf (snd a) = b_conf b.

Definition text_eq (t u : list N) : bool := if list_eq_dec N.eq_dec t u then true else false.
Definition votes (l : list ballot) (t : list N) : list ballot := filter (fun b => text_eq (b_text b) t) l.
Definition qsum (l : list Q) : Q := fold_right Qplus 0%Q l.
Definition zsum (l : list Z) : Z := fold_right Z.add 0%Z l.
Definition count (l : list ballot) : Q := inject_Z (Z.of_nat (List.length l)).
Definition conf_sum (l : list ballot) : Q := qsum (map b_conf l).
(** The largest confidence; negative ones count as 0. *)
Definition conf_max (l : list ballot) : Q := fold_right Qmax 0%Q (map b_conf l).

(** The documented scores: a share alpha for the frequency, the rest for the confidence. *)
Inductive rule := AverageConfidence | MaximalConfidence | ShareOfConfidence.
Definition confidence (r : rule) (l : list ballot) (t : list N) : Q :=
  match r with
  | AverageConfidence => conf_sum (votes l t) / count (votes l t)
  | MaximalConfidence => conf_max (votes l t)
  | ShareOfConfidence => conf_sum (votes l t) / conf_sum l
  end%Q.
Definition vote_score (r : rule) (alpha : Q) (l : list ballot) (t : list N) : Q :=
  (alpha * (count (votes l t) / count l) + (1 - alpha) * confidence r l t)%Q.
Definition rule_of (m : meth) : option rule :=
  match m with
  | M_meth1 | M_meth1a | M_oracle => Some AverageConfidence
  | M_maxconf | M_maxconfa => Some MaximalConfidence
  | M_avgconf => Some ShareOfConfidence
  | _ => None
  end.

(** [t] wins: it is proposed, and at its first proposal [x] every text before has a smaller score,
    and no text has a larger one. *)
Definition wins (sc : list N -> Q) (l : list ballot) (t : list N) : Prop :=
  exists pre x post, l = pre ++ x :: post /\ b_text x = t /\
    (forall y, In y pre -> (sc (b_text y) < sc t)%Q) /\ (forall y, In y l -> (sc (b_text y) <= sc t)%Q).

(** The different texts, in the order of their first proposals. *)
Definition firsts (l : list (list N)) : list (list N) :=
  fold_left (fun acc t => if in_dec (list_eq_dec N.eq_dec) t acc then acc else acc ++ [t]) l [].

(** The line printed for a text: the average times and confidence of those who proposed it. *)
Definition line_for (l : list ballot) (t : list N) (out : line) : Prop :=
  let v := votes l t in
  (l_t1 out == inject_Z (zsum (map b_t1 v)) / count v /\
   l_dur out == inject_Z (zsum (map b_t2 v) - zsum (map b_t1 v)) / count v /\
   l_conf out == conf_sum v / count v)%Q.
(** The spelling printed: that of the first arc with the text. *)
Definition first_with (arcs : list varc) (t : list N) (v : vword) : Prop :=
  exists pre a post, arcs = pre ++ a :: post /\ snd a = v /\ text_is (v_word v) t /\
    forall a', In a' pre -> ~ text_is (v_word (snd a')) t.
