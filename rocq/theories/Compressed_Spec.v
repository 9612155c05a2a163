(** What is asked of the compressor, and the cases in which the matrix may stop. *)
From Coq Require Import List ZArith Arith.
From Verif Require Import Compressed_Model Matrix_Spec.
Import ListNotations.

(** The compressor is lossless: what it compressed decompresses to the same cells. *)
Definition lossless (cd : codec) : Prop :=
  forall data z, cd_comp cd data = Some z -> cd_decomp cd z = Some data.

(** The compressor reported an error on some block. *)
Definition compressor_fails (cd : codec) (ge : geometry) : Prop :=
  exists data, length data = ge_elts ge /\ cd_comp cd data = None.

(** Some block does not get smaller (its compressed form and the 5 property bytes take at
    least the 4 bytes per cell of the block). *)
Definition incompressible_block (cd : codec) (ge : geometry) : Prop :=
  exists data z, length data = ge_elts ge /\ cd_comp cd data = Some z /\
    (4 * Z.of_nat (ge_elts ge) <= Z.of_nat (length z) + 5)%Z.

Definition op_in_range (deep : list nat) (o : op) : Prop :=
  match o with Get c => in_range deep c | Set_ c _ => in_range deep c end.

(** Bytes held by the blocks. *)
Definition bytes_held (m : cmatrix) : Z :=
  fold_right (fun b acc => (match b with Some b => bl_size b | None => 0 end + acc)%Z) 0%Z
             (cm_blocks m).

(** The integer form of the thresholds: start when one more block would pass [start], stop at
    or below [stop]. *)
Definition byte_thresholds (ge : geometry) (start stop : Z) : thresholds :=
  {| th_start := fun mem => (start <=? mem + base_length ge)%Z;
     th_stop := fun mem => (mem <=? stop)%Z |}.

(** Blocks that are uncompressed, compressed, created. *)
Definition is_unc (ob : option block) : bool :=
  match ob with Some b => negb (bl_is_comp b) | None => false end.
Definition is_cmp (ob : option block) : bool :=
  match ob with Some b => bl_is_comp b | None => false end.
Definition is_crt (ob : option block) : bool :=
  match ob with Some b => true | None => false end.
