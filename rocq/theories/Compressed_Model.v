(** Model of the block-compressed Levenshtein cost matrix (compressedlevenshteinmatrix.cpp). *)
From Coq Require Import List ZArith Arith Bool.
From Verif Require Import Base Matrix_Model Graph_Model.
Import ListNotations.
Open Scope res_scope.

(** The byte compressor (LzmaCompress / LzmaUncompress, lzma/LzmaLib.h), left abstract.
    Simplifications: a block is its list of cells rather than bytes; the compressed form is a
    list whose length is [comp_lengh]; [None] is a return code other than SZ_OK; the
    properties always take exactly LZMA_PROPS_SIZE = 5 bytes; decompression consumes the
    whole input, so [comp_lengh] is not changed by LzmaUncompress. *)
Record codec := {
  cd_comp : list Z -> option (list Z);
  cd_decomp : list Z -> option (list Z)
}.

Definition PROPS : Z := 5.

(** compressedlevenshteinmatrix.h:88-89 [isCallGarbageCollector], [isStopGarbageCollector],
    as functions of [m_CurrentMemorySize].  Simplification: the floating-point thresholds are
    replaced by arbitrary predicates of the memory figure. *)
Record thresholds := {
  th_start : Z -> bool;
  th_stop : Z -> bool
}.

(** ** Geometry *)

(** compressedlevenshteinmatrix.cpp:382-395, the candidate dividers of one dimension of
    [D = deep-1] cells, for [levelopt] 0 or 1 (the only values used, lines 61-64). *)
Definition dividers (levelopt : nat) (D : nat) : list nat :=
  (if D =? 1 then [1] else []) ++
  filter (fun j => (D mod j =? 0)
                   || ((1 <=? levelopt) && ((D + 1) mod 2 =? 0) && ((D + 1) mod j =? 0)))
         (seq 2 (D - 1)).

(** compressedlevenshteinmatrix.cpp:415-418: cells per block along a dimension. *)
Definition block_deep (D divider : nat) : nat :=
  if D mod divider =? 0 then D / divider else S (D / divider).

(** compressedlevenshteinmatrix.cpp:402-448: all combinations of dividers, the last dimension
    varying fastest.  Simplification: the cursor odometer is written as a product. *)
Fixpoint divider_combinations (ds : list (list nat)) : list (list nat) :=
  match ds with
  | [] => [[]]
  | xs :: rest => flat_map (fun x => map (cons x) (divider_combinations rest)) xs
  end.

Fixpoint map2 {A B C} (f : A -> B -> C) (l : list A) (m : list B) : list C :=
  match l, m with
  | x :: l', y :: m' => f x y :: map2 f l' m'
  | _, _ => []
  end.

Fixpoint product_of (l : list nat) : nat :=
  match l with [] => 1 | x :: r => x * product_of r end.

(** compressedlevenshteinmatrix.cpp:423-434: keep the first combination whose block size is
    closest to the wanted size. *)
Fixpoint closest (Ds : list nat) (blocksize : nat) (combs : list (list nat))
         (best : option (nat * list nat)) : option (list nat) :=
  match combs with
  | [] => option_map snd best
  | divs :: rest =>
      let size := product_of (map2 block_deep Ds divs) in
      let closer := if size <? blocksize then blocksize - size else size - blocksize in
      let best' := match best with
                   | Some (c, _) => if closer <? c then Some (closer, divs) else best
                   | None => Some (closer, divs)
                   end in
      closest Ds blocksize rest best'
  end.

(** compressedlevenshteinmatrix.cpp:370-477 [BlockComputation]; [None] when no combination
    exists, in which case the code leaves its tables uninitialised. *)
Definition block_computation (levelopt blocksize : nat) (Ds : list nat) : option (list nat) :=
  closest Ds blocksize (divider_combinations (map (dividers levelopt) Ds)) None.

(** compressedlevenshteinmatrix.cpp:71-81, 451-463: the tables derived from the dividers. *)
Record geometry := {
  ge_bdeep : list nat;      (* m_TabBlockDimensionDeep *)
  ge_mblock : list nat;     (* m_MultiplicatorBlockDimension *)
  ge_mdiv : list nat;       (* m_MultiplicatorDivider *)
  ge_elts : nat;            (* m_BlockSizeElts, at least 4 cells *)
  ge_nblocks : nat          (* m_NbrCompressedTabs *)
}.

Fixpoint running_products (acc : nat) (l : list nat) : list nat :=
  match l with
  | [] => []
  | x :: r => acc :: running_products (acc * x) r
  end.

Definition geometry_of (Ds divs : list nat) : geometry :=
  let bd := map2 block_deep Ds divs in
  {| ge_bdeep := bd;
     ge_mblock := running_products 1 bd;
     ge_mdiv := running_products 1 divs;
     ge_elts := Nat.max 4 (product_of bd);
     ge_nblocks := product_of divs |}.

(** m_BaseLengthIn (line 463), in bytes. *)
Definition base_length (ge : geometry) : Z := (4 * Z.of_nat (ge_elts ge))%Z.

(** compressedlevenshteinmatrix.cpp:50-64: the constructor's choice of geometry.  [kb] is
    m_BlockSizeKB (the wanted block has [kb*256] cells).  Simplification: the test
    [m_BaseLengthIn < 0.2*m_BlockSizeKB*1024] is done in exact arithmetic. *)
Definition matrix_geometry (deeps : list nat) (kb : nat) : option geometry :=
  let Ds := map (fun d => d - 1) deeps in
  match block_computation 0 (kb * 256) Ds with
  | None => None
  | Some divs =>
      let ge := geometry_of Ds divs in
      if (5 * base_length ge <? Z.of_nat kb * 1024)%Z
      then option_map (geometry_of Ds) (block_computation 1 (kb * 256) Ds)
      else Some ge
  end.

(** compressedlevenshteinmatrix.cpp:326-336 [CoordinatesToBlockOffset]. *)
Fixpoint coord_sum (f : nat -> nat -> nat) (coord bdeep mult : list nat) : nat :=
  match coord, bdeep, mult with
  | c :: coord', b :: bdeep', m :: mult' => f c b * m + coord_sum f coord' bdeep' mult'
  | _, _, _ => 0
  end.
Definition block_num (ge : geometry) (coord : list nat) : nat :=
  coord_sum Nat.div coord (ge_bdeep ge) (ge_mdiv ge).
Definition block_offset (ge : geometry) (coord : list nat) : nat :=
  coord_sum Nat.modulo coord (ge_bdeep ge) (ge_mblock ge).

(** ** State *)

(** One block: [m_TabStartByte], [m_TabStartByteCompressed], [m_TabSizes],
    [m_TabbIsCompressed], [m_TabHitsTimer]; [None] in [cm_blocks] is a block not created. *)
Record block := {
  bl_data : option (list Z);
  bl_comp : option (list Z);
  bl_size : Z;
  bl_is_comp : bool;
  bl_timer : nat
}.

Record cmatrix := {
  cm_blocks : list (option block);
  cm_mem : Z;             (* m_CurrentMemorySize; no wrap-around in the model *)
  cm_size : nat;          (* m_SizeOfArray *)
  cm_accesses : nat;      (* m_Accesses *)
  cm_compressions : nat;
  cm_decompressions : nat;
  cm_ncomp : Z;           (* m_NbrCompressedBlocks *)
  cm_ndecomp : Z;         (* m_NbrDecompressedBlocks *)
  cm_created : nat        (* m_NbrCreatedBlocks *)
}.

(** compressedlevenshteinmatrix.cpp:90-107. *)
Definition cm_new (ge : geometry) : cmatrix :=
  {| cm_blocks := repeat None (ge_nblocks ge);
     cm_mem := 0; cm_size := 0; cm_accesses := 0; cm_compressions := 0;
     cm_decompressions := 0; cm_ncomp := 0; cm_ndecomp := 0; cm_created := 0 |}.

Section Ops.
Variable cd : codec.
Variable th : thresholds.
Variable ge : geometry.

(** compressedlevenshteinmatrix.h:71 [TouchBlock]. *)
Definition touch (m : cmatrix) (i : nat) : res cmatrix :=
  match nth_error (cm_blocks m) i with
  | Some (Some b) =>
      Ok {| cm_blocks := update (cm_blocks m) i
              (Some {| bl_data := bl_data b; bl_comp := bl_comp b; bl_size := bl_size b;
                       bl_is_comp := bl_is_comp b; bl_timer := cm_accesses m |});
            cm_mem := cm_mem m; cm_size := cm_size m; cm_accesses := S (cm_accesses m);
            cm_compressions := cm_compressions m; cm_decompressions := cm_decompressions m;
            cm_ncomp := cm_ncomp m; cm_ndecomp := cm_ndecomp m; cm_created := cm_created m |}
  | _ => Undef
  end.

(** compressedlevenshteinmatrix.cpp:181-224, the body of [CompressBlock] for a block that is
    created (its only caller passes such a block, line 300). *)
Definition compress_block (m : cmatrix) (i : nat) : res cmatrix :=
  match nth_error (cm_blocks m) i with
  | Some (Some b) =>
      if bl_is_comp b then Ok m
      else match bl_data b with
           | None => Undef
           | Some data =>
               match cd_comp cd data with
               | None => Exit
               | Some z =>
                   let comp := (Z.of_nat (length z) + PROPS)%Z in
                   if (bl_size b <=? comp)%Z then Ok m
                   else Ok {| cm_blocks := update (cm_blocks m) i
                                (Some {| bl_data := None; bl_comp := Some z; bl_size := comp;
                                         bl_is_comp := true; bl_timer := bl_timer b |});
                              cm_mem := (cm_mem m + comp - bl_size b)%Z;
                              cm_size := cm_size m; cm_accesses := cm_accesses m;
                              cm_compressions := S (cm_compressions m);
                              cm_decompressions := cm_decompressions m;
                              cm_ncomp := (cm_ncomp m + 1)%Z;
                              cm_ndecomp := (cm_ndecomp m - 1)%Z;
                              cm_created := cm_created m |}
               end
           end
  | _ => Undef
  end.

(** compressedlevenshteinmatrix.cpp:292-313: the created, uncompressed block with the
    smallest timer.  Simplification: ULONG_MAX is unreachable, so the first candidate is
    always accepted. *)
Fixpoint oldest_from (i : nat) (bs : list (option block)) (best : option (nat * nat))
  : option nat :=
  match bs with
  | [] => option_map snd best
  | Some b :: rest =>
      if bl_is_comp b then oldest_from (S i) rest best
      else oldest_from (S i) rest
             (match best with
              | Some (t, _) => if bl_timer b <? t then Some (bl_timer b, i) else best
              | None => Some (bl_timer b, i)
              end)
  | None :: rest => oldest_from (S i) rest best
  end.

(** compressedlevenshteinmatrix.cpp:290-319 [ForcedGarbageCollection]. *)
Definition forced_gc (m : cmatrix) : res (bool * cmatrix) :=
  match oldest_from 0 (cm_blocks m) None with
  | None => Ok (false, m)
  | Some i => let* m' := compress_block m i in Ok (true, m')
  end.

(** compressedlevenshteinmatrix.cpp:277-282: [do found = Forced(); while(found && !stop)]. *)
Fixpoint gc_loop (fuel : nat) (m : cmatrix) : res cmatrix :=
  match fuel with
  | 0 => NoFuel
  | S fuel' =>
      let* (found, m') := forced_gc m in
      if found && negb (th_stop th (cm_mem m')) then gc_loop fuel' m' else Ok m'
  end.

(** compressedlevenshteinmatrix.cpp:263-288 [GarbageCollection]. *)
Definition garbage_collection (fuel : nat) (m : cmatrix) : res cmatrix :=
  if th_start th (cm_mem m) then gc_loop fuel m else Ok m.

(** compressedlevenshteinmatrix.cpp:158-175 [CreateBlock]; an index outside the tables is
    undefined behaviour. *)
Definition create_block (fuel : nat) (m : cmatrix) (i : nat) : res cmatrix :=
  match nth_error (cm_blocks m) i with
  | None => Undef
  | Some (Some _) => Ok m
  | Some None =>
      let m1 := {| cm_blocks := update (cm_blocks m) i
                     (Some {| bl_data := Some (repeat C_UNCALCULATED (ge_elts ge));
                              bl_comp := None; bl_size := base_length ge;
                              bl_is_comp := false; bl_timer := 0 |});
                   cm_mem := (cm_mem m + base_length ge)%Z;
                   cm_size := cm_size m; cm_accesses := cm_accesses m;
                   cm_compressions := cm_compressions m;
                   cm_decompressions := cm_decompressions m;
                   cm_ncomp := cm_ncomp m; cm_ndecomp := (cm_ndecomp m + 1)%Z;
                   cm_created := S (cm_created m) |} in
      let* m2 := touch m1 i in
      garbage_collection fuel m2
  end.

(** compressedlevenshteinmatrix.cpp:227-261 [DecompressBlock]. *)
Definition decompress_block (fuel : nat) (m : cmatrix) (i : nat) : res (bool * cmatrix) :=
  let* m1 := create_block fuel m i in
  match nth_error (cm_blocks m1) i with
  | Some (Some b) =>
      if bl_is_comp b then
        match bl_comp b with
        | None => Undef
        | Some z =>
            match cd_decomp cd z with
            | None => Exit
            | Some data =>
                let comp_lengh := (bl_size b - PROPS)%Z in
                let m2 := {| cm_blocks := update (cm_blocks m1) i
                               (Some {| bl_data := Some data; bl_comp := None;
                                        bl_size := base_length ge; bl_is_comp := false;
                                        bl_timer := bl_timer b |});
                             cm_mem := (cm_mem m1 + base_length ge - comp_lengh)%Z;
                             cm_size := cm_size m1; cm_accesses := cm_accesses m1;
                             cm_compressions := cm_compressions m1;
                             cm_decompressions := S (cm_decompressions m1);
                             cm_ncomp := (cm_ncomp m1 - 1)%Z;
                             cm_ndecomp := (cm_ndecomp m1 + 1)%Z;
                             cm_created := cm_created m1 |} in
                let* m3 := touch m2 i in Ok (true, m3)
            end
        end
      else let* m3 := touch m1 i in Ok (false, m3)
  | _ => Undef
  end.

(** [m_TabStartByte[x][y]]; reading outside the block or through NULL is undefined. *)
Definition read_cell (m : cmatrix) (x y : nat) : res Z :=
  match nth_error (cm_blocks m) x with
  | Some (Some b) =>
      match bl_data b with
      | Some data => match nth_error data y with Some v => Ok v | None => Undef end
      | None => Undef
      end
  | _ => Undef
  end.

Definition write_cell (m : cmatrix) (x y : nat) (v : Z) (grow : bool) : res cmatrix :=
  match nth_error (cm_blocks m) x with
  | Some (Some b) =>
      match bl_data b with
      | Some data =>
          Ok {| cm_blocks := update (cm_blocks m) x
                  (Some {| bl_data := Some (update data y v); bl_comp := bl_comp b;
                           bl_size := bl_size b; bl_is_comp := bl_is_comp b;
                           bl_timer := bl_timer b |});
                cm_mem := cm_mem m;
                cm_size := if grow then S (cm_size m) else cm_size m;
                cm_accesses := cm_accesses m; cm_compressions := cm_compressions m;
                cm_decompressions := cm_decompressions m; cm_ncomp := cm_ncomp m;
                cm_ndecomp := cm_ndecomp m; cm_created := cm_created m |}
      | None => Undef
      end
  | _ => Undef
  end.

(** compressedlevenshteinmatrix.cpp:338-351 [GetCostFor]. *)
Definition cm_get (fuel : nat) (m : cmatrix) (coord : list nat) : res (Z * cmatrix) :=
  let x := block_num ge coord in
  let y := block_offset ge coord in
  let* (decomp, m1) := decompress_block fuel m x in
  let* out := read_cell m1 x y in
  let* m2 := (if decomp : bool then garbage_collection fuel m1 else Ok m1) in
  Ok (out, m2).

(** compressedlevenshteinmatrix.cpp:353-368 [SetCostFor]. *)
Definition cm_set (fuel : nat) (m : cmatrix) (coord : list nat) (cost : Z) : res cmatrix :=
  let x := block_num ge coord in
  let y := block_offset ge coord in
  let* (decomp, m1) := decompress_block fuel m x in
  let* old := read_cell m1 x y in
  let* m2 := write_cell m1 x y cost (Z.eqb old C_UNCALCULATED) in
  if decomp : bool then garbage_collection fuel m2 else Ok m2.

(** A history of calls; the result collects what the reads return. *)
Inductive op := Get (c : list nat) | Set_ (c : list nat) (v : Z).

Fixpoint cm_run (fuel : nat) (m : cmatrix) (ops : list op) : res (list Z * cmatrix) :=
  match ops with
  | [] => Ok ([], m)
  | Get c :: rest =>
      let* (v, m1) := cm_get fuel m c in
      let* (vs, m2) := cm_run fuel m1 rest in
      Ok (v :: vs, m2)
  | Set_ c v :: rest =>
      let* m1 := cm_set fuel m c v in
      cm_run fuel m1 rest
  end.

(** The compressed matrix as the graph's cost store (graph.cpp:128-131). *)
Definition compressed_store (fuel : nat) : cost_store :=
  {| cs_state := cmatrix; cs_get := cm_get fuel; cs_set := cm_set fuel |}.

End Ops.

(** The same history on the plain matrix. *)
Fixpoint array_ops (m : array_matrix) (ops : list op) : option (list Z * array_matrix) :=
  match ops with
  | [] => Some ([], m)
  | Get c :: rest =>
      match array_get m c with
      | None => None
      | Some v => option_map (fun r => (v :: fst r, snd r)) (array_ops m rest)
      end
  | Set_ c v :: rest =>
      match array_set m c v with
      | None => None
      | Some m' => array_ops m' rest
      end
  end.
