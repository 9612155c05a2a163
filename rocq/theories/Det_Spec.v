(** What the DET curve and the confidence histograms say. *)
From Coq Require Import List Arith ZArith QArith Bool Permutation Sorted.
From Verif Require Import Det_Model.
Import ListNotations.
Local Open Scope nat_scope.

(** the confidences of the correct words and of the wrong words (substituted or inserted) *)
Definition corrects (sc : scores) : list Q :=
  map s_conf (filter (fun x => is_corr (s_eval x) && negb (s_empty x)) (all_steps sc)).
Definition is_wrong (e : eval) : bool := match e with Sub | Ins => true | _ => false end.
Definition wrongs (sc : scores) : list Q :=
  map s_conf (filter (fun x => is_wrong (s_eval x)) (all_steps sc)).

(** how many values lie below a threshold *)
Definition below (th : Q) (l : list Q) : nat := length (filter (fun v => negb (Qle_bool th v)) l).

(** at the threshold [th], [n] of the values are discarded, one of the least values being left aside *)
Definition discards (l : list Q) (n : nat) (th : Q) : Prop :=
  exists least gone kept,
    Permutation l (least :: gone ++ kept) /\
    Forall (fun v => least <= v)%Q (gone ++ kept) /\
    length gone = n /\ Forall (fun v => v <= th)%Q gone /\ Forall (fun v => th <= v)%Q kept.

(** a number of words as a part of a total *)
Definition part (n total : nat) : Q := (inject_Z (Z.of_nat n) / inject_Z (Z.of_nat total))%Q.

(** [lines] is the DET curve of correct words with the confidences [t] and wrong ones with [f]: after a
    first point that does not depend on them, each line has the part of the correct words that is
    discarded and the part of the wrong words that is kept *)
Definition is_det (t f : list Q) (lines : list point) : Prop :=
  exists cuts : list (nat * nat),
    lines = (Some (5 # 10000), Some (5 # 10))%Q ::
      map (fun c => (Some (part (fst c) (length t)), Some (part (length f - snd c) (length f)))) cuts /\
    length cuts = length t + length f - 2 /\
    (* the k-th line discards k words *)
    (forall k a b, nth_error cuts k = Some (a, b) -> a + b = k + 1) /\
    (* more and more of both *)
    StronglySorted (fun c d => fst c <= fst d /\ snd c <= snd d) cuts /\
    (* by a threshold *)
    (forall a b, In (a, b) cuts -> exists th, discards t a th /\ discards f b th) /\
    (* and every threshold that discards words of both sorts has its line *)
    (forall th, 1 <= below th t -> 1 <= below th f -> 2 < below th t + below th f ->
       In (below th t - 1, below th f - 1) cuts).

(** the point of the words that are really below a threshold *)
Definition true_point (t f : list Q) (th : Q) : point :=
  (Some (part (below th t) (length t)), Some (part (length f - below th f) (length f))).

(** a number that does not fill an array which starts with [cap] cells and doubles when it is full *)
Definition room (cap n : nat) : Prop := forall k, n <> cap * 2 ^ k.

(** no confidence reaches the mark 9E99 *)
Definition moderate (sc : scores) : Prop :=
  Forall (fun x => s_conf x <= inject_Z (9 * 10 ^ 99))%Q (all_steps sc).

(** the words of the first systems of a list *)
Definition count_corrects (l : list scores) : nat := list_sum (map (fun sc => length (corrects sc)) l).
Definition count_wrongs (l : list scores) : nat := list_sum (map (fun sc => length (wrongs sc)) l).

(** ** Histograms *)
(** whether a confidence belongs to bin [b] of [n]: the last bin has its upper end *)
Definition in_bin (n b : nat) (c : Q) : bool :=
  Qle_bool (part b n) c &&
  (negb (Qle_bool (part (b + 1) n) c) || ((b =? n - 1) && Qle_bool c 1)).
(** the hypothesis words of an alignment *)
Definition said (sc : scores) : list step :=
  filter (fun x => match s_eval x with Del => false | _ => negb (s_empty x) end) (all_steps sc).
(** how many of them are in bin [b] of [n] and correct, and how many are in it and not correct *)
Definition bin_correct (n b : nat) (sc : scores) : nat :=
  length (filter (fun x => in_bin n b (s_conf x) && is_corr (s_eval x)) (said sc)).
Definition bin_incorrect (n b : nat) (sc : scores) : nat :=
  length (filter (fun x => in_bin n b (s_conf x) && negb (is_corr (s_eval x))) (said sc)).
(** confidences between 0 and 1 *)
Definition probabilities (sc : scores) : Prop :=
  Forall (fun x => 0 <= s_conf x <= 1)%Q (said sc).
(** confidences that can be put in [n] bins or told to be out of range: none beyond a million, none
    negative by less than the width of a bin *)
Definition binnable (n : nat) (sc : scores) : Prop :=
  Forall (fun x => -(1000000) <= s_conf x <= 1000000 /\ ~ (- part 1 n < s_conf x < 0))%Q (said sc).
Definition out_of_range (sc : scores) : nat :=
  length (filter (fun x => negb (Qle_bool 0 (s_conf x) && Qle_bool (s_conf x) 1)) (said sc)).
