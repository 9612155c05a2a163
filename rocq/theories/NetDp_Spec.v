(** What an alignment of two networks is. *)
From Coq Require Import List ZArith Arith Bool.
From Verif Require Import Base Net_Model Net_Spec NetDp_Model.
Import ListNotations.

(** A pairing of arcs of the first network with arcs of the second; [None] is nothing. *)
Definition pairing : Type := list (option nat * option nat).
Definition firsts (s : pairing) : list nat :=
  flat_map (fun p => match fst p with Some x => [x] | None => [] end) s.
Definition seconds (s : pairing) : list nat :=
  flat_map (fun p => match snd p with Some y => [y] | None => [] end) s.

Section Spec.
Context {D : Type}.

(** A path through the whole network; a network without arcs has the empty one. *)
Definition full_path (N : net D) (xs : list nat) : Prop :=
  match n_stop N with
  | Some t => npath N (n_start N) xs t
  | None => xs = []
  end.
Definition is_alignment (NA NB : net D) (s : pairing) : Prop :=
  full_path NA (firsts s) /\ full_path NB (seconds s) /\ ~ In (None, None) s.

Definition word_of (N : net D) (o : option nat) : option D :=
  match o with Some x => n_data N x | None => None end.
(** The sum of the distances of the pairs. *)
Definition align_cost (w : option D -> option D -> Z) (NA NB : net D) (s : pairing) : Z :=
  fold_right (fun p acc => (w (word_of NA (fst p)) (word_of NB (snd p)) + acc)%Z) 0%Z s.

(** The entry of the path for a pair. *)
Definition entry_of (equal : option D -> option D -> bool) (is_opt : option D -> bool) (empty : D)
    (NA NB : net D) (p : option nat * option nat) : step D :=
  let a := word_of NA (fst p) in
  let b := word_of NB (snd p) in
  match p with
  | (Some _, Some _) => (a, b, if equal a b then PCorr else PSub)
  | (Some _, None) => if is_opt a then (a, Some empty, PCorr) else (a, None, PDel)
  | (None, _) => if is_opt b then (Some empty, b, PCorr) else (None, b, PIns)
  end.
(** Pairs made of null words only are left out unless nulls are asked for. *)
Definition shown (is_null : option D -> bool) (nulls : bool) (NA NB : net D) (p : option nat * option nat) : bool :=
  nulls || negb (match p with
                 | (Some _, Some _) => is_null (word_of NA (fst p)) && is_null (word_of NB (snd p))
                 | (Some _, None) => is_null (word_of NA (fst p))
                 | (None, _) => is_null (word_of NB (snd p))
                 end).

(** A word of the network, or the null pointer. *)
Definition word_in (N : net D) (d : option D) : Prop := d = None \/ exists x u, In x (n_out N u) /\ n_data N x = d.
(** No arc of the network has a null pointer for data. *)
Definition no_null_data (N : net D) : Prop := forall x u, In x (n_out N u) -> n_data N x <> None.
End Spec.
