(** What a composite network is. *)
From Coq Require Import List ZArith NArith Arith Bool Permutation.
From Verif Require Import Base Net_Model Net_Spec.
From Verif Require Word_Model.
Import ListNotations.

Section Spec.
Context {D : Type}.

(** From the node [u] on, the network is a row of slots: all arcs that leave a node lead to the
    same next node.  [S] lists the words of each slot. *)
Inductive slots (G : net D) : nat -> list (list D) -> Prop :=
| slots_end : forall u, n_out G u = [] -> slots G u []
| slots_more : forall u s v S, s <> [] -> map (n_data G) (n_out G u) = map Some s ->
    (forall x, In x (n_out G u) -> n_to G x = v) -> slots G v S -> slots G u (s :: S).
Definition is_wtn (G : net D) (S : list (list D)) : Prop := wf_net G /\ slots G (n_start G) S.
(** A network without alternatives. *)
Definition is_line (N : net D) (l : list D) : Prop := is_wtn N (map (fun d => [d]) l).

(** An alignment of a row of slots with a line of words: each slot is paired with a word, chosen by
    the distance to one of the entries of the slot, or with nothing.  The merged row has the words
    and nulls of the new line as last entries of the slots; a word without slot comes first in a new
    slot with [n] nulls. *)
Inductive aligned (w : option D -> option D -> Z) (copy : D -> D) (null : D) (n : nat) : list (list D) -> list D -> list (list D) -> Z -> Prop :=
| al_nil : aligned w copy null n [] [] [] 0
| al_sub : forall S Y R c s x y, aligned w copy null n S Y R c -> In x s ->
    aligned w copy null n (S ++ [s]) (Y ++ [y]) (R ++ [s ++ [copy y]]) (c + w (Some x) (Some y))
| al_del : forall S Y R c s x, aligned w copy null n S Y R c -> In x s ->
    aligned w copy null n (S ++ [s]) Y (R ++ [s ++ [copy null]]) (c + w (Some x) None)
| al_ins : forall S Y R c y, aligned w copy null n S Y R c ->
    aligned w copy null n S (Y ++ [y]) (R ++ [copy y :: repeat (copy null) n]) (c + w None (Some y)).
Definition cheapest w copy null n S Y R : Prop :=
  exists c, aligned w copy null n S Y R c /\ forall R' c', aligned w copy null n S Y R' c' -> (c <= c')%Z.

(** The composite of the lines [ls]: they are merged one after the other, each by a cheapest
    alignment with the composite of the earlier ones. *)
Inductive composite (w : option D -> option D -> Z) (copy : D -> D) (null : D) : list (list D) -> list (list D) -> Prop :=
| co_one : forall l, composite w copy null [l] (map (fun d => [copy d]) l)
| co_more : forall ls S l R, composite w copy null ls S -> cheapest w copy null (length ls) S (map copy l) R ->
    composite w copy null (ls ++ [l]) R.

(** The row read by systems: a column lists for each system the word it has there, or nothing; the
    slot has these words, with the null word for nothing, in some order. *)
Definition entry (null : D) (o : option D) : D := match o with Some d => d | None => null end.
Definition column_of (null : D) (s : list D) (c : list (option D)) : Prop := Permutation s (map (entry null) c).
Definition words_of (cols : list (list (option D))) (i : nat) : list D :=
  flat_map (fun c => match nth i c None with Some d => [d] | None => [] end) cols.
End Spec.

(** ** Words of ROVER *)
Section Rover.
Import Word_Model.
(** A word of a system's output: a text of ASCII characters, not optional, without the tag
    "%sync%time" in upper or lower case. *)
Definition small (b : N) : N := if (65 <=? b)%N && (b <=? 90)%N then (b + 32)%N else b.
Definition has_tag (s : list N) : Prop :=
  exists a b c, s = a ++ b ++ c /\ map small b = [37; 115; 121; 110; 99; 37; 116; 105; 109; 101]%N.
Definition rover_word (w : word) : Prop :=
  w_opt_del w = false /\ w_frag w = false /\ w_value w <> [] /\ Forall (fun b => 0 < b < 128)%N (w_value w) /\ ~ has_tag (w_value w).
(** The costs, in thousandths: 0.001 to add or leave out the null word "@", 3 for another word; 0
    for equal texts, except 1 for two null words; 1 for a null word against another word and 4 for
    two other words. *)
Definition same (s t : list N) : bool := if list_eq_dec N.eq_dec s t then true else false.
Definition rover_cost (x y : option word) : Z :=
  match x, y with
  | None, None => 0
  | Some a, None | None, Some a => if same (w_value a) [64%N] then 1 else 3000
  | Some a, Some b =>
      if same (w_value a) [64%N] || same (w_value b) [64%N] then 1000
      else if same (w_value a) (w_value b) then 0 else 4000
  end%Z.
End Rover.
