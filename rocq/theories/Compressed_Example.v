(** A run-length compressor: three bytes when all cells are equal, otherwise a marker and
    four bytes per cell. *)
From Coq Require Import List ZArith Arith Bool Lia.
From Verif Require Import Base Matrix_Model Matrix_Spec Graph_Model Compressed_Model Compressed_Spec.
Import ListNotations.

Definition rle_comp (data : list Z) : option (list Z) :=
  match data with
  | [] => Some []
  | v :: _ =>
      if forallb (Z.eqb v) data then Some [0%Z; v; Z.of_nat (length data)]
      else Some (1%Z :: flat_map (fun x => [x; 0; 0; 0]%Z) data)
  end.

Fixpoint every_fourth (l : list Z) : list Z :=
  match l with
  | x :: _ :: _ :: _ :: rest => x :: every_fourth rest
  | _ => []
  end.

Definition rle_decomp (z : list Z) : option (list Z) :=
  match z with
  | [] => Some []
  | 0%Z :: v :: n :: [] => Some (repeat v (Z.to_nat n))
  | 1%Z :: rest => Some (every_fourth rest)
  | _ => None
  end.

Definition rle : codec := {| cd_comp := rle_comp; cd_decomp := rle_decomp |}.

Lemma rle_lossless : lossless rle.
Proof.
  intros data z H. simpl in *. unfold rle_comp in H. destruct data as [|v data].
  - injection H as <-. reflexivity.
  - destruct (forallb (Z.eqb v) (v :: data)) eqn:E; injection H as <-; simpl.
    + rewrite SuccNat2Pos.id_succ. simpl. do 2 f_equal.
      simpl in E. rewrite Z.eqb_refl in E. simpl in E.
      induction data as [|w data IH]; simpl in *; [reflexivity|].
      apply andb_prop in E. destruct E as [E1 E2]. apply Z.eqb_eq in E1. subst w. f_equal. apply IH. exact E2.
    + do 2 f_equal. clear E. induction data as [|w data IH]; simpl; [reflexivity|]. f_equal. exact IH.
Qed.

(** A compressor that stores one byte per cell, which is possible for costs below 255. *)
Definition packing : codec := {| cd_comp := fun data => Some data; cd_decomp := fun z => Some z |}.

(** Two dimensions of 4 and 3 cells. *)
Definition ex_deeps : list nat := [5; 4].
Definition ex_geometry : geometry :=
  geometry_of [4; 3] [2; 2].
Definition ex_history : list op :=
  [Set_ [0; 0] 5%Z; Set_ [3; 2] 7%Z; Get [0; 0]; Set_ [3; 1] 2%Z; Get [3; 2]; Get [2; 2];
   Set_ [0; 0] 6%Z; Get [0; 0]].
