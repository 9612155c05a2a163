(** When a group of segments is to be scored, independently of the program. *)
From Coq Require Import List ZArith QArith.
From Verif Require Import Skip_Model.
Import ListNotations.
Local Open Scope Z_scope.

(** The cells of the alignment matrix: the product, over all speakers and hypotheses, of the number
    of tokens plus one. *)
Definition sum (l : list Z) : Z := fold_right Z.add 0 l.
Definition product (l : list Z) : Z := fold_right Z.mul 1 l.
Definition cells (g : group) : Z := product (map (fun l => sum (map ntok l) + 1) (refs g ++ hyps g)).

(** The cells, four bytes each, exceed [gb] gigabytes even without one of them. *)
Definition above (g : group) (gb : Q) : Prop := (inject_Z (1024 * 1024 * 1024) * gb <= inject_Z (4 * (cells g - 1)))%Q.
(** The cells fill less than [gb] gigabytes. *)
Definition below (g : group) (gb : Q) : Prop := (inject_Z (4 * cells g) < inject_Z (1024 * 1024 * 1024) * gb)%Q.

(** The reasons to skip a group. *)
Definition holds (c : config) (g : group) (r : reason) : Prop :=
  match r with
  | Ignored => exists l s, In l (refs g) /\ In s l /\ excluded s = true
  | OtherGroup => exists id, only_group c = Some id /\ gid g <> id
  | ManySpeakers => max_speakers c < Z.of_nat (length (refs g))
  | FewSpeakers => Z.of_nat (length (refs g)) < min_speakers c
  | TooDifficult => exists gb, difficulty_gb c = Some gb /\ above g gb
  | TooEasy => exists gb, min_difficulty_gb c = Some gb /\ below g gb
  | TooLarge => (above g (max_gb c) \/ above g 2) /\ compression c = false /\ force_compression c = false
  end.
Definition order : list reason := [Ignored; OtherGroup; ManySpeakers; FewSpeakers; TooDifficult; TooEasy; TooLarge].
(** [r] is the first reason, in this order, that holds. *)
Definition first_reason (c : config) (g : group) (r : reason) : Prop :=
  exists a b, order = a ++ r :: b /\ holds c g r /\ forall x, In x a -> ~ holds c g x.

(** The settings make sense: numbers that fit their types. *)
Definition sane_gb (gb : Q) : Prop := (0 <= gb)%Q /\ (gb < inject_Z (1024 * 1024 * 1024))%Q.
Definition sane (c : config) : Prop :=
  0 <= max_speakers c < 2 ^ 31 /\ 0 <= min_speakers c < 2 ^ 31 /\ sane_gb (max_gb c) /\
  (forall gb, difficulty_gb c = Some gb -> sane_gb gb) /\ (forall gb, min_difficulty_gb c = Some gb -> sane_gb gb).
(** The number of cells fits in 64 bits. *)
Definition small (g : group) : Prop :=
  (forall l s, In l (refs g ++ hyps g) -> In s l -> 0 <= ntok s) /\ cells g < 2 ^ 64.

(** The time from the first beginning to the last end. *)
Definition segments (g : group) : list gseg := concat (refs g) ++ concat (hyps g).
Definition spans (g : group) (b e : Z) : Prop :=
  (exists s, In s (segments g) /\ sbegin s = b) /\ (forall s, In s (segments g) -> b <= sbegin s) /\
  (exists s, In s (segments g) /\ send s = e) /\ (forall s, In s (segments g) -> send s <= e).

(** A group without hypothesis is compared with an empty one. *)
Definition completed (g g' : group) : Prop :=
  gid g' = gid g /\ refs g' = refs g /\
  ((hyps g <> [] /\ hyps g' = hyps g) \/ (hyps g = [] /\ exists s, hyps g' = [[s]] /\ ntok s = 0)).

(** The groups are sorted out, in their order, into aligned and skipped ones. *)
Inductive sorted_out (c : config) : list group -> list (group * bool) -> list (group * reason) -> Prop :=
| S_none : sorted_out c [] [] []
| S_aligned : forall g g' b gs al sk, completed g g' -> (forall r, ~ holds c g' r) ->
    (b = true <-> force_compression c = true \/ above g' (max_gb c) \/ above g' 2) ->
    sorted_out c gs al sk -> sorted_out c (g :: gs) ((g', b) :: al) sk
| S_skipped : forall g g' r gs al sk, completed g g' -> first_reason c g' r ->
    sorted_out c gs al sk -> sorted_out c (g :: gs) al ((g', r) :: sk).
