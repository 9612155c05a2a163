(** What a cost store should do, independently of any implementation. *)
From Coq Require Import List ZArith Arith.
Import ListNotations.

(** A coordinate is in range when it has one entry per dimension and entry [i] is one of
    [0 .. deep_i - 2] (the last slot of each dimension is the closing NULL). *)
Definition in_range (deep coord : list nat) : Prop :=
  Forall2 (fun d c => c + 1 < d) deep coord.

Definition coord_eq_dec : forall a b : list nat, {a = b} + {a <> b} :=
  list_eq_dec Nat.eq_dec.

(** The last value written to [c] in a history of writes (oldest first). *)
Fixpoint last_write (ws : list (list nat * Z)) (c : list nat) : option Z :=
  match ws with
  | [] => None
  | (c', v) :: rest =>
      match last_write rest c with
      | Some w => Some w
      | None => if coord_eq_dec c' c then Some v else None
      end
  end.

(** The number of different coordinates written. *)
Definition distinct_written (ws : list (list nat * Z)) : nat :=
  length (nodup coord_eq_dec (map fst ws)).
