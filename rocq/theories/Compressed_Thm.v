From Coq Require Import List ZArith Arith Bool Lia.
From Verif Require Import Base Matrix_Model Matrix_Spec Matrix_Proofs Graph_Model Graph_Spec
  Graph_Proofs1 Graph_Proofs2 Graph_Proofs3 Graph_Proofs4 Graph_Proofs5 Graph_Example Compressed_Model Compressed_Spec Compressed_Proofs Compressed_Example.
Import ListNotations.
Open Scope res_scope.

(** C07: the block layout always exists, and no two coordinates share a cell. *)
Theorem C07_block_addressing : forall deeps kb, Forall (fun d => 2 <= d) deeps ->
  exists ge, matrix_geometry deeps kb = Some ge /\
    (forall c, in_range deeps c -> block_num ge c < ge_nblocks ge /\ block_offset ge c < ge_elts ge) /\
    (forall c1 c2, in_range deeps c1 -> in_range deeps c2 ->
       block_num ge c1 = block_num ge c2 -> block_offset ge c1 = block_offset ge c2 -> c1 = c2).
Proof.
  intros deeps kb H. destruct (matrix_geometry_good deeps kb H) as (ge & E & G). exists ge. split; auto.
Qed.
Print Assumptions C07_block_addressing.

(** C07: with a lossless compressor, for every size, block size, thresholds and history of
    reads and writes, the reads and the number of calculated costs are those of the plain
    matrix.  The program may stop only if the compressor fails, and may loop only if a block
    does not shrink; it never reads outside a block. *)
Theorem C07_compressed_equals_plain : forall cd th deeps kb ge fuel ops,
  lossless cd -> Forall (fun d => 2 <= d) deeps -> matrix_geometry deeps kb = Some ge ->
  Forall (op_in_range deeps) ops ->
  exists vs ma, array_ops (array_new deeps) ops = Some (vs, ma) /\
    match cm_run cd th ge fuel (cm_new ge) ops with
    | Ok (ws, m) => ws = vs /\ cm_size m = am_size ma
    | Exit => compressor_fails cd ge
    | NoFuel => fuel <= ge_nblocks ge \/ incompressible_block cd ge
    | Undef => False
    end.
Proof.
  intros cd th deeps kb ge fuel ops Hll HD HG Hops.
  destruct (matrix_geometry_good deeps kb HD) as (ge' & E & G). rewrite HG in E. injection E as <-.
  destruct (run_agree cd th ge Hll deeps G fuel ops (cm_new ge) (array_new deeps) _ Hops
    (cm_new_rep cd ge deeps G) (arep_new deeps) eq_refl) as (vs & ma & Ea & Hp).
  exists vs, ma. split; [exact Ea|].
  destruct (cm_run cd th ge fuel (cm_new ge) ops) as [[ws m]| | |]; simpl in Hp; auto.
  destruct Hp as (H1 & H2 & _). auto.
Qed.
Print Assumptions C07_compressed_equals_plain.

(** C07, C09: if moreover every block shrinks, every history runs to its end. *)
Theorem C07_total : forall cd th deeps kb ge fuel ops,
  lossless cd -> Forall (fun d => 2 <= d) deeps -> matrix_geometry deeps kb = Some ge ->
  Forall (op_in_range deeps) ops ->
  ~ compressor_fails cd ge -> ~ incompressible_block cd ge -> ge_nblocks ge < fuel ->
  exists vs ma m, array_ops (array_new deeps) ops = Some (vs, ma) /\
    cm_run cd th ge fuel (cm_new ge) ops = Ok (vs, m) /\ cm_size m = am_size ma.
Proof.
  intros cd th deeps kb ge fuel ops Hll HD HG Hops Hf Hi Hfuel.
  destruct (C07_compressed_equals_plain cd th deeps kb ge fuel ops Hll HD HG Hops) as (vs & ma & Ea & H).
  destruct (cm_run cd th ge fuel (cm_new ge) ops) as [[ws m]| | |].
  - destruct H as [-> H]. exists vs, ma, m. auto.
  - contradiction.
  - contradiction.
  - destruct H as [H|H]; [lia|contradiction].
Qed.
Print Assumptions C07_total.

(** C07 (with C01-C04): with the compressed matrix, and a lossless compressor under which
    blocks shrink, the search terminates and returns an alignment of minimal cost. *)
Theorem C07_compressed_search : forall cd th kb ge g, lossless cd -> wf_graph g ->
  matrix_geometry (map deep (g_dims g)) kb = Some ge ->
  ~ compressor_fails cd ge -> ~ incompressible_block cd ge ->
  forall cfuel, ge_nblocks ge < cfuel ->
  exists N, forall fuel, N <= fuel ->
  exists best al,
    (let* s := fill_graph (compressed_store cd th ge cfuel) g fuel (cm_new ge) in
     let* (best, s1) := get_best_cost (compressed_store cd th ge cfuel) g s in
     let* (al, s2) := retrieve_alignment (compressed_store cd th ge cfuel) g fuel s1 in
     Ok (best, al)) = Ok (best, al) /\
    is_alignment g al /\ alignment_cost g al = best /\
    (no_pruning g -> forall al', is_alignment g al' -> (best <= alignment_cost g al')%Z).
Proof.
  intros cd th kb ge g Hll Hwf HG Hf Hi cfuel Hc.
  assert (HD : Forall (fun d => 2 <= d) (map deep (g_dims g))).
  { apply Forall_map. apply Forall_forall. intros d _. unfold deep. lia. }
  destruct (matrix_geometry_good _ kb HD) as (ge' & E & G). rewrite HG in E. injection E as <-.
  assert (Hpost : forall A (r : res A) P, post cd ge (stuck cd ge cfuel) r P -> outcome False r P).
  { intros A r P H. destruct r; simpl in *; auto. destruct H as [H|H]; [lia|contradiction]. }
  destruct (search_generic g Hwf (compressed_store cd th ge cfuel) False
    (fun s f => rep cd ge (map deep (g_dims g)) s f)) with (s0 := cm_new ge) as [N HN].
  - intros s f c Hr Hv. apply Hpost. simpl.
    pose proof (cm_get_ok cd th ge Hll _ G cfuel s f c Hr (valid_in_range g c Hv)) as H.
    destruct (cm_get cd th ge cfuel s c); simpl in *; auto. tauto.
  - intros s f c v Hr Hv _. apply Hpost. simpl.
    pose proof (cm_set_ok cd th ge Hll _ G cfuel s f c v Hr (valid_in_range g c Hv)) as H.
    destruct (cm_set cd th ge cfuel s c v); simpl in *; auto.
    destruct H as [(cs & H1 & H2) _]. exists cs. split; [exact H1|]. intros c' Hc'.
    destruct (H2 c' Hc') as (row & Hr1 & Hr2). exists row. split; [exact Hr1|]. rewrite Hr2.
    unfold fupd, fset. destruct (coord_eq_dec c c'); destruct (coord_dec c' c); congruence.
  - destruct (cm_new_rep cd ge _ G) as (cs & H1 & H2). exists cs. auto.
  - exists N. intros fuel HF. specialize (HN fuel HF).
    match type of HN with outcome False ?r _ => destruct r as [[best al]| | |] eqn:E end; try contradiction.
    simpl in HN. exists best, al. split; [reflexivity|]. exact HN.
Qed.

Print Assumptions C07_compressed_search.

(** C08: the counters of compressed, uncompressed and created blocks are exact, and the memory
    figure is the bytes held plus five bytes for each decompression done so far. *)
Theorem C08_memory_drift : forall cd th deeps kb ge fuel ops ws m,
  lossless cd -> Forall (fun d => 2 <= d) deeps -> matrix_geometry deeps kb = Some ge ->
  Forall (op_in_range deeps) ops ->
  cm_run cd th ge fuel (cm_new ge) ops = Ok (ws, m) ->
  cm_mem m = (bytes_held m + 5 * Z.of_nat (cm_decompressions m))%Z /\
  cm_ncomp m = Z.of_nat (length (filter is_cmp (cm_blocks m))) /\
  cm_ndecomp m = Z.of_nat (length (filter is_unc (cm_blocks m))) /\
  cm_created m = length (filter is_crt (cm_blocks m)).
Proof.
  intros cd th deeps kb ge fuel ops ws m Hll HD HG Hops Hrun.
  destruct (matrix_geometry_good deeps kb HD) as (ge' & E & G). rewrite HG in E. injection E as <-.
  destruct (run_agree cd th ge Hll deeps G fuel ops (cm_new ge) (array_new deeps) _ Hops
    (cm_new_rep cd ge deeps G) (arep_new deeps) eq_refl) as (vs & ma & Ea & Hp).
  rewrite Hrun in Hp. destruct Hp as (_ & _ & f & cs & (_ & H1 & H2 & H3 & H4 & _) & _).
  simpl in H1, H2, H3, H4. auto.
Qed.
Print Assumptions C08_memory_drift.

(** C08 as stated is false: a write and a read of another block, and the figure is off. *)
Theorem C08_memory_accounting_refuted :
  exists cd th deeps kb ge fuel ops ws m,
    lossless cd /\ Forall (fun d => 2 <= d) deeps /\ matrix_geometry deeps kb = Some ge /\
    Forall (op_in_range deeps) ops /\
    cm_run cd th ge fuel (cm_new ge) ops = Ok (ws, m) /\ cm_mem m <> bytes_held m.
Proof.
  exists rle, (byte_thresholds ex_geometry 30 10), ex_deeps, 1, ex_geometry, 20.
  eexists [Get [0; 0]; Get [1; 1]; Get [0; 0]; Get [2; 2]]. do 2 eexists.
  split; [exact rle_lossless|]. split; [repeat constructor|]. split; [vm_compute; reflexivity|].
  split; [repeat constructor; lia|]. split; [vm_compute; reflexivity|]. vm_compute. discriminate.
Qed.
Print Assumptions C08_memory_accounting_refuted.

(** C09 as stated is false: one write can make the collector loop for ever. *)
Theorem C09_gc_terminates_refuted :
  exists cd th deeps kb ge ops,
    lossless cd /\ Forall (fun d => 2 <= d) deeps /\ matrix_geometry deeps kb = Some ge /\
    Forall (op_in_range deeps) ops /\ ~ compressor_fails cd ge /\
    forall fuel, cm_run cd th ge fuel (cm_new ge) ops = NoFuel.
Proof.
  exists rle, (byte_thresholds ex_geometry 40 10), ex_deeps, 1, ex_geometry,
    [Set_ [0; 0] 5%Z; Get [3; 2]].
  split; [exact rle_lossless|]. split; [repeat constructor|]. split; [vm_compute; reflexivity|].
  split; [repeat constructor; lia|].
  split.
  { intros (d & _ & H). simpl in H. unfold rle_comp in H. destruct d as [|v d]; [discriminate|].
    destruct (forallb _ _); discriminate. }
  intros fuel. set (th := byte_thresholds ex_geometry 40 10).
  assert (E1 : exists m1, (forall f, cm_set rle th ex_geometry f (cm_new ex_geometry) [0; 0] 5%Z = Ok m1) /\
     exists m2, (forall f, create_block rle th ex_geometry f m1 (block_num ex_geometry [3; 2]) = gc_loop rle th f m2) /\
       forced_gc rle m2 = Ok (true, m2) /\ th_stop th (cm_mem m2) = false).
  { eexists. split; [intros f; vm_compute; reflexivity|].
    eexists. split; [intros f; unfold create_block; cbn; reflexivity|].
    split; vm_compute; reflexivity. }
  destruct E1 as (m1 & E1 & m2 & E2 & E3 & E4).
  cbn [cm_run]. rewrite E1. cbn [rbind]. unfold cm_get. cbn zeta. unfold decompress_block.
  rewrite E2.
  assert (L : forall f, gc_loop rle th f m2 = NoFuel).
  { induction f as [|f IH]; [reflexivity|]. cbn [gc_loop]. rewrite E3. cbn [rbind].
    rewrite E4. simpl. exact IH. }
  rewrite L. reflexivity.
Qed.
Print Assumptions C09_gc_terminates_refuted.

(** C09: when every block shrinks the collector terminates in any reachable state. *)
Theorem C09_gc_terminates : forall cd th deeps kb ge fuel ops ws m,
  lossless cd -> Forall (fun d => 2 <= d) deeps -> matrix_geometry deeps kb = Some ge ->
  Forall (op_in_range deeps) ops ->
  cm_run cd th ge fuel (cm_new ge) ops = Ok (ws, m) ->
  ~ compressor_fails cd ge -> ~ incompressible_block cd ge ->
  forall f, ge_nblocks ge < f -> exists m', garbage_collection cd th f m = Ok m'.
Proof.
  intros cd th deeps kb ge fuel ops ws m Hll HD HG Hops Hrun Hf Hi f Hfuel.
  destruct (matrix_geometry_good deeps kb HD) as (ge' & E & G). rewrite HG in E. injection E as <-.
  destruct (run_agree cd th ge Hll deeps G fuel ops (cm_new ge) (array_new deeps) _ Hops
    (cm_new_rep cd ge deeps G) (arep_new deeps) eq_refl) as (vs & ma & Ea & Hp).
  rewrite Hrun in Hp. destruct Hp as (_ & _ & f' & cs & Hinv & _). simpl in Hinv.
  pose proof (gc_ok cd th ge f m cs Hinv) as H.
  destruct (garbage_collection cd th f m) as [m'| | |]; simpl in H; try contradiction; eauto.
  destruct H as [H|H]; [lia|contradiction].
Qed.
Print Assumptions C09_gc_terminates.

(** The history of the example, on a memory limit that forces collections. *)
Example C07_case :
  lossless rle /\ Forall (fun d => 2 <= d) ex_deeps /\
  matrix_geometry ex_deeps 1 = Some ex_geometry /\ Forall (op_in_range ex_deeps) ex_history /\
  lossless packing /\ ~ compressor_fails packing ex_geometry /\
  ~ incompressible_block packing ex_geometry /\
  exists ws m, cm_run packing (byte_thresholds ex_geometry 50 10) ex_geometry 20 (cm_new ex_geometry)
    ex_history = Ok (ws, m) /\ ws = [5; 7; -1; 6]%Z /\ 0 < cm_compressions m /\ 0 < cm_decompressions m.
Proof.
  split; [exact rle_lossless|]. split; [repeat constructor|]. split; [vm_compute; reflexivity|].
  split; [repeat constructor; lia|]. split; [intros d z H; injection H as <-; reflexivity|].
  split; [intros (d & _ & H); discriminate|].
  split; [intros (d & z & H1 & H2 & H3); injection H2 as <-; rewrite H1 in H3; vm_compute in H3; congruence|].
  do 2 eexists. split; [vm_compute; reflexivity|]. repeat split; vm_compute; lia.
Qed.
