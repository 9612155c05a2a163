(** Model of the plain (array) Levenshtein cost matrix of asclite. *)
From Coq Require Import List ZArith Arith.
Import ListNotations.

(** levenshteinmatrix.h:24 [C_UNCALCULATED]. *)
Definition C_UNCALCULATED : Z := (-1)%Z.

(** arraylevenshteinmatrix.cpp:32,37: [m_MultiplicatorDimension], with
    [mult[0] = 1] and [mult[i] = mult[i-1]*(deep[i-1]-1)].
    Simplification: [size_t] is [nat] (no wrap-around). *)
Fixpoint multiplicators (acc : nat) (deep : list nat) : list nat :=
  match deep with
  | [] => []
  | d :: rest => acc :: multiplicators (acc * (d - 1)) rest
  end.

(** arraylevenshteinmatrix.cpp:33,38: [m_MaxSize]. *)
Fixpoint max_size (deep : list nat) : nat :=
  match deep with
  | [] => 1
  | d :: rest => (d - 1) * max_size rest
  end.

(** arraylevenshteinmatrix.cpp:93-94: the sum of products of [CoordinatesToSize]. *)
Fixpoint dot (ms cs : list nat) : nat :=
  match ms, cs with
  | m :: ms', c :: cs' => m * c + dot ms' cs'
  | _, _ => 0
  end.

(** The object's fields (arraylevenshteinmatrix.h:29-33). *)
Record array_matrix := mkArray {
  am_mult : list nat;   (* m_MultiplicatorDimension *)
  am_max : nat;         (* m_MaxSize *)
  am_cost : list Z;     (* m_TabCost *)
  am_size : nat         (* m_SizeOfArray *)
}.

(** arraylevenshteinmatrix.cpp:26-53, the constructor.  [deep] must be non-empty as
    in the code, which reads [_TabDimensionDeep[0]]. *)
Definition array_new (deep : list nat) : array_matrix :=
  {| am_mult := multiplicators 1 deep;
     am_max := max_size deep;
     am_cost := repeat C_UNCALCULATED (max_size deep);
     am_size := 0 |}.

(** arraylevenshteinmatrix.cpp:89-105 [CoordinatesToSize]; [None] is [exit(E_INVALID)]. *)
Definition coordinates_to_size (m : array_matrix) (coord : list nat) : option nat :=
  let out := dot (am_mult m) coord in
  if am_max m <=? out then None else Some out.

Fixpoint update {A} (l : list A) (n : nat) (v : A) : list A :=
  match l, n with
  | [], _ => []
  | _ :: t, 0 => v :: t
  | h :: t, S k => h :: update t k v
  end.

(** arraylevenshteinmatrix.h:43 [GetCostFor]; [None] is exit. *)
Definition array_get (m : array_matrix) (coord : list nat) : option Z :=
  match coordinates_to_size m coord with
  | None => None
  | Some i => nth_error (am_cost m) i
  end.

(** arraylevenshteinmatrix.cpp:65-73 [SetCostFor]; [None] is exit. *)
Definition array_set (m : array_matrix) (coord : list nat) (cost : Z) : option array_matrix :=
  match coordinates_to_size m coord with
  | None => None
  | Some i =>
      match nth_error (am_cost m) i with
      | None => None
      | Some old =>
          Some {| am_mult := am_mult m;
                  am_max := am_max m;
                  am_cost := update (am_cost m) i cost;
                  am_size := if Z.eqb old C_UNCALCULATED then S (am_size m) else am_size m |}
      end
  end.

(** arraylevenshteinmatrix.h:45 [IsCostCalculatedFor]. *)
Definition array_is_calculated (m : array_matrix) (coord : list nat) : option bool :=
  match array_get m coord with
  | None => None
  | Some v => Some (negb (Z.eqb v C_UNCALCULATED))
  end.

(** arraylevenshteinmatrix.h:46 [GetNumberOfCalculatedCosts]. *)
Definition array_number_calculated (m : array_matrix) : nat := am_size m.

(** A history of [SetCostFor] calls on a fresh matrix. *)
Fixpoint array_run (m : array_matrix) (ws : list (list nat * Z)) : option array_matrix :=
  match ws with
  | [] => Some m
  | (c, v) :: rest =>
      match array_set m c v with
      | None => None
      | Some m' => array_run m' rest
      end
  end.
