From Coq Require Import List ZArith Arith Bool Lia.
From Verif Require Import Base Matrix_Model Matrix_Spec Matrix_Proofs Graph_Model
  Compressed_Model Compressed_Spec.
Import ListNotations.
Open Scope res_scope.

(** ** Geometry *)

Lemma running_mult : forall l acc, running_products acc l = multiplicators acc (map S l).
Proof.
  induction l as [|x l IH]; intros acc; simpl; [reflexivity|].
  rewrite IH. do 2 f_equal. lia.
Qed.

Lemma product_max : forall l, product_of l = max_size (map S l).
Proof.
  induction l as [|x l IH]; simpl; [reflexivity|]. rewrite IH. f_equal. lia.
Qed.

Lemma coord_sum_dot : forall f cs bs ms, coord_sum f cs bs ms = dot ms (map2 f cs bs).
Proof.
  intros f. induction cs as [|c cs IH]; intros [|b bs] [|m ms]; simpl; try reflexivity.
  rewrite IH. lia.
Qed.

(** Dividers that cover a dimension. *)
Definition good_div (D d : nat) : Prop := 1 <= d /\ 1 <= block_deep D d /\ D <= d * block_deep D d.

Lemma good_div_intro : forall D d, 1 <= D -> 1 <= d -> good_div D d.
Proof.
  intros D d HD Hd. unfold good_div, block_deep.
  pose proof (Nat.div_mod D d ltac:(lia)) as E.
  pose proof (Nat.mod_upper_bound D d ltac:(lia)) as U.
  destruct (Nat.eqb_spec (D mod d) 0); repeat split; try lia; try nia.
Qed.

Lemma dividers_pos : forall lv D j, In j (dividers lv D) -> 1 <= j.
Proof.
  intros lv D j H. unfold dividers in H. apply in_app_or in H. destruct H as [H|H].
  - destruct (D =? 1); [destruct H as [<-|[]]; lia|destruct H].
  - apply filter_In in H. destruct H as [H _]. apply in_seq in H. lia.
Qed.

Lemma dividers_nonempty : forall lv D, 1 <= D -> dividers lv D <> [].
Proof.
  intros lv D H E. unfold dividers in E.
  destruct (Nat.eqb_spec D 1); [discriminate|]. cbn [app] in E.
  match type of E with ?l = [] => assert (Hin : In D l) end.
  { apply filter_In. split; [apply in_seq; lia|]. rewrite Nat.mod_same by lia. reflexivity. }
  rewrite E in Hin. exact Hin.
Qed.

Lemma combinations_spec : forall ds c,
  In c (divider_combinations ds) -> Forall2 (fun xs x => In x xs) ds c.
Proof.
  induction ds as [|xs ds IH]; intros c H; simpl in H.
  - destruct H as [<-|[]]. constructor.
  - apply in_flat_map in H. destruct H as (x & Hx & H). apply in_map_iff in H.
    destruct H as (r & <- & Hr). constructor; [exact Hx|apply IH; exact Hr].
Qed.

Lemma combinations_nonempty : forall ds, Forall (fun xs => xs <> []) ds -> divider_combinations ds <> [].
Proof.
  induction ds as [|xs ds IH]; intros H; simpl; [discriminate|].
  inversion H as [|? ? Hx Hd]; subst. specialize (IH Hd).
  destruct xs as [|x xs]; [congruence|]. simpl.
  destruct (divider_combinations ds); [congruence|]. discriminate.
Qed.

Lemma closest_spec : forall Ds bs combs best,
  (combs <> [] \/ best <> None) ->
  exists divs, closest Ds bs combs best = Some divs /\
    (In divs combs \/ exists c, best = Some (c, divs)).
Proof.
  intros Ds bs. induction combs as [|d combs IH]; intros best H; simpl.
  - destruct best as [[c d]|]; [|destruct H; congruence]. exists d. simpl. eauto.
  - match goal with |- context [closest Ds bs combs ?b] => set (b' := b) end.
    destruct (IH b') as (divs & E & Hd).
    { right. unfold b'. destruct best as [[c d']|]; [destruct (_ <? c)|]; discriminate. }
    exists divs. split; [exact E|]. destruct Hd as [Hd|[c Hc]]; [left; now right|].
    unfold b' in Hc. destruct best as [[c0 d0]|].
    + match type of Hc with (if ?x then _ else _) = _ => destruct x end.
      * injection Hc as _ <-. left. now left.
      * right. exists c0. injection Hc as _ <-. reflexivity.
    + injection Hc as _ <-. left. now left.
Qed.

Lemma block_computation_spec : forall lv bs Ds, Forall (fun D => 1 <= D) Ds ->
  exists divs, block_computation lv bs Ds = Some divs /\ Forall2 good_div Ds divs.
Proof.
  intros lv bs Ds HD. unfold block_computation.
  destruct (closest_spec Ds bs (divider_combinations (map (dividers lv) Ds)) None) as (divs & E & H).
  { left. apply combinations_nonempty. apply Forall_map. eapply Forall_impl; [|exact HD].
    intros D. apply dividers_nonempty. }
  exists divs. split; [exact E|]. destruct H as [H|[c H]]; [|discriminate].
  apply combinations_spec in H. clear E.
  revert divs H. induction HD as [|D Ds HD0 HD IH]; intros divs H; simpl in H; inversion H; subst; constructor.
  - apply good_div_intro; [exact HD0|]. eapply dividers_pos. eassumption.
  - apply IH. assumption.
Qed.

(** A geometry whose addressing is sound for the given dimensions. *)
Definition good_geometry (deeps : list nat) (ge : geometry) : Prop :=
  (forall c, in_range deeps c -> block_num ge c < ge_nblocks ge /\ block_offset ge c < ge_elts ge) /\
  (forall c1 c2, in_range deeps c1 -> in_range deeps c2 ->
     block_num ge c1 = block_num ge c2 -> block_offset ge c1 = block_offset ge c2 -> c1 = c2).

Lemma geometry_good : forall deeps divs,
  Forall2 good_div (map (fun d => d - 1) deeps) divs ->
  good_geometry deeps (geometry_of (map (fun d => d - 1) deeps) divs).
Proof.
  intros deeps divs HG. set (Ds := map (fun d => d - 1) deeps) in *.
  assert (HR : forall c, in_range deeps c -> Forall2 (fun D c => c < D) Ds c).
  { intros c H. unfold Ds, in_range in *. clear HG Ds. induction H; simpl; constructor; auto. lia. }
  assert (Hq : forall c, Forall2 (fun D c => c < D) Ds c ->
     in_range (map S divs) (map2 Nat.div c (map2 block_deep Ds divs))).
  { clear HR. induction HG as [|D d Ds' ds (H1 & H2 & H3) HG IH]; intros c H; inversion H; subst; simpl.
    - constructor.
    - constructor; [|apply IH; assumption].
      cbn beta in *. enough (y / block_deep D d < d) by lia. apply Nat.div_lt_upper_bound; nia. }
  assert (Hr : forall c, Forall2 (fun D c => c < D) Ds c ->
     in_range (map S (map2 block_deep Ds divs)) (map2 Nat.modulo c (map2 block_deep Ds divs))).
  { clear HR Hq. induction HG as [|D d Ds' ds (H1 & H2 & H3) HG IH]; intros c H; inversion H; subst; simpl.
    - constructor.
    - constructor; [|apply IH; assumption].
      pose proof (Nat.mod_upper_bound y (block_deep D d) ltac:(lia)). cbn beta. lia. }
  split.
  - intros c Hc. specialize (HR c Hc). unfold block_num, block_offset. simpl.
    rewrite !coord_sum_dot, !running_mult. split.
    + rewrite product_max. apply dot_lt_max. apply Hq. exact HR.
    + apply Nat.lt_le_trans with (product_of (map2 block_deep Ds divs)); [|apply (Nat.le_max_r 4 (product_of (map2 block_deep Ds divs)))].
      rewrite product_max. apply dot_lt_max. apply Hr. exact HR.
  - intros c1 c2 H1 H2 E1 E2. apply HR in H1. apply HR in H2.
    unfold block_num in E1. unfold block_offset in E2. simpl in E1, E2.
    rewrite !coord_sum_dot, !running_mult in E1, E2.
    apply dot_inj in E1; [|apply Hq; assumption|apply Hq; assumption].
    apply dot_inj in E2; [|apply Hr; assumption|apply Hr; assumption].
    clear Hq Hr HR. revert c1 c2 H1 H2 E1 E2.
    induction HG as [|D d Ds' ds (H1 & H2 & H3) HG IH]; intros c1 c2 L1 L2 E1 E2;
      inversion L1; inversion L2; subst; [reflexivity|].
    simpl in E1, E2. injection E1 as Ea Eb. injection E2 as Ec Ed. f_equal.
    + rewrite (Nat.div_mod y (block_deep D d)) by lia.
      rewrite (Nat.div_mod y0 (block_deep D d)) by lia. congruence.
    + apply IH; assumption.
Qed.

Lemma matrix_geometry_good : forall deeps kb, Forall (fun d => 2 <= d) deeps ->
  exists ge, matrix_geometry deeps kb = Some ge /\ good_geometry deeps ge.
Proof.
  intros deeps kb H. unfold matrix_geometry.
  assert (HD : Forall (fun D => 1 <= D) (map (fun d => d - 1) deeps)).
  { apply Forall_map. eapply Forall_impl; [|exact H]. simpl. intros. lia. }
  destruct (block_computation_spec 0 (kb * 256) _ HD) as (d0 & -> & G0).
  destruct (_ <? _)%Z.
  - destruct (block_computation_spec 1 (kb * 256) _ HD) as (d1 & -> & G1).
    eexists. split; [reflexivity|]. apply geometry_good. exact G1.
  - eexists. split; [reflexivity|]. apply geometry_good. exact G0.
Qed.

(** ** Invariant *)

Section Inv.
Variable cd : codec.
Variable th : thresholds.
Variable ge : geometry.
Hypothesis Hll : lossless cd.

Definition brep (ob : option block) (row : list Z) : Prop :=
  length row = ge_elts ge /\
  match ob with
  | None => row = repeat C_UNCALCULATED (ge_elts ge)
  | Some b =>
      if bl_is_comp b
      then exists z, bl_comp b = Some z /\ bl_data b = None /\ cd_comp cd row = Some z /\
             bl_size b = (Z.of_nat (length z) + PROPS)%Z
      else bl_data b = Some row /\ bl_comp b = None /\ bl_size b = base_length ge
  end.

Definition count (f : option block -> bool) (l : list (option block)) : nat := length (filter f l).

Definition inv (m : cmatrix) (cs : list (list Z)) : Prop :=
  Forall2 brep (cm_blocks m) cs /\
  cm_mem m = (bytes_held m + 5 * Z.of_nat (cm_decompressions m))%Z /\
  cm_ncomp m = Z.of_nat (count is_cmp (cm_blocks m)) /\
  cm_ndecomp m = Z.of_nat (count is_unc (cm_blocks m)) /\
  cm_created m = count is_crt (cm_blocks m) /\
  length (cm_blocks m) = ge_nblocks ge.

Definition bsum (l : list (option block)) : Z :=
  fold_right (fun b acc => (match b with Some b => bl_size b | None => 0 end + acc)%Z) 0%Z l.
Definition osize (ob : option block) : Z := match ob with Some b => bl_size b | None => 0%Z end.

Lemma bsum_update : forall l i old new, nth_error l i = Some old ->
  bsum (update l i new) = (bsum l - osize old + osize new)%Z.
Proof.
  induction l as [|x l IH]; intros [|i] old new H; simpl in *; try discriminate.
  - injection H as ->. unfold osize. lia.
  - rewrite (IH i old new H). lia.
Qed.

Lemma count_update : forall f l i old new, nth_error l i = Some old ->
  (Z.of_nat (count f (update l i new)) =
   Z.of_nat (count f l) - (if f old then 1 else 0) + (if f new then 1 else 0))%Z.
Proof.
  intros f. unfold count. induction l as [|x l IH]; intros [|i] old new H; simpl in *; try discriminate.
  - injection H as ->. destruct (f old), (f new); simpl length; lia.
  - specialize (IH i old new H). destruct (f x); simpl length; lia.
Qed.

Lemma Forall2_update : forall A B (R : A -> B -> Prop) l m i a b,
  Forall2 R l m -> R a b -> Forall2 R (update l i a) (update m i b).
Proof.
  intros A B R l m i a b H Hab. revert i. induction H; intros [|i]; simpl; constructor; auto.
Qed.

Lemma Forall2_update_l : forall A B (R : A -> B -> Prop) l m i a b,
  Forall2 R l m -> nth_error m i = Some b -> R a b -> Forall2 R (update l i a) m.
Proof.
  intros A B R l m i a b H Hn Hab. revert i Hn.
  induction H as [|x y l m Hxy H IH]; intros [|i] Hn; simpl in *; try discriminate; constructor; auto.
  congruence.
Qed.

Lemma Forall2_nth_l : forall A B (R : A -> B -> Prop) l m i a,
  Forall2 R l m -> nth_error l i = Some a -> exists b, nth_error m i = Some b /\ R a b.
Proof.
  intros A B R l m i a H. revert i. induction H; intros [|i] Hn; simpl in *; try discriminate.
  - injection Hn as <-. eauto.
  - eauto.
Qed.

Lemma Forall2_len : forall A B (R : A -> B -> Prop) l m, Forall2 R l m -> length l = length m.
Proof. intros A B R l m H. induction H; simpl; congruence. Qed.

(** Outcomes: correct, stopped because the compressor failed, or looping in the collector. *)
Definition post {A} (F : Prop) (r : res A) (P : A -> Prop) : Prop :=
  match r with
  | Ok a => P a
  | Exit => compressor_fails cd ge
  | NoFuel => F
  | Undef => False
  end.

Lemma post_bind : forall A B F (r : res A) (k : A -> res B) (P : A -> Prop) (Q : B -> Prop),
  post F r P -> (forall a, P a -> post F (k a) Q) -> post F (rbind r k) Q.
Proof. intros A B F r k P Q H HK. destruct r; simpl in *; auto. Qed.

Lemma post_mono : forall A (F G : Prop) (r : res A) (P Q : A -> Prop),
  post F r P -> (F -> G) -> (forall a, P a -> Q a) -> post G r Q.
Proof. intros A F G r P Q H H1 H2. destruct r; simpl in *; auto. Qed.

Definition same (m m' : cmatrix) : Prop :=
  cm_size m' = cm_size m /\ map is_crt (cm_blocks m') = map is_crt (cm_blocks m).

Lemma same_trans : forall a b c, same a b -> same b c -> same a c.
Proof. unfold same. intros a b c [H1 H2] [H3 H4]. split; congruence. Qed.

Lemma map_update : forall A B (f : A -> B) l i old new, nth_error l i = Some old ->
  f new = f old -> map f (update l i new) = map f l.
Proof.
  intros A B f. induction l as [|x l IH]; intros [|i] old new H E; simpl in *; try discriminate.
  - congruence.
  - f_equal. eapply IH; eassumption.
Qed.

Lemma touch_ok : forall m i b cs, inv m cs -> nth_error (cm_blocks m) i = Some (Some b) ->
  exists m', touch m i = Ok m' /\ inv m' cs /\ same m m' /\
    count is_unc (cm_blocks m') = count is_unc (cm_blocks m) /\
    exists b', nth_error (cm_blocks m') i = Some (Some b') /\ bl_is_comp b' = bl_is_comp b.
Proof.
  intros m i b cs (HF & Hmem & Hn & Hd & Hc & Hl) Hb. unfold touch. rewrite Hb.
  eexists. split; [reflexivity|].
  set (nb := Some {| bl_data := bl_data b; bl_comp := bl_comp b; bl_size := bl_size b;
                     bl_is_comp := bl_is_comp b; bl_timer := cm_accesses m |}).
  destruct (Forall2_nth_l _ _ _ _ _ _ _ HF Hb) as (row & Hrow & Hrep).
  pose proof (count_update is_cmp _ i _ nb Hb) as C1.
  pose proof (count_update is_unc _ i _ nb Hb) as C2.
  pose proof (count_update is_crt _ i _ nb Hb) as C3.
  pose proof (bsum_update _ i _ nb Hb) as C4. simpl in C1, C2, C3, C4.
  split; [|split; [split; [reflexivity|eapply map_update; [exact Hb|reflexivity]]|split]].
  - split; [|split; [|split; [|split; [|split]]]]; simpl.
    + eapply Forall2_update_l; [exact HF|exact Hrow|exact Hrep].
    + rewrite Hmem. change (bytes_held m) with (bsum (cm_blocks m)).
      unfold bytes_held. simpl. change (fold_right _ 0%Z ?l) with (bsum l). lia.
    + rewrite Hn. fold nb. destruct (bl_is_comp b); lia.
    + rewrite Hd. fold nb. destruct (bl_is_comp b); simpl in *; lia.
    + rewrite Hc. fold nb. lia.
    + rewrite update_length. exact Hl.
  - simpl. fold nb. destruct (bl_is_comp b); simpl in *; lia.
  - simpl. eexists. split; [apply nth_error_update_same; apply nth_error_Some; congruence|]. reflexivity.
Qed.

Lemma compress_ok : forall m i b cs, inv m cs -> nth_error (cm_blocks m) i = Some (Some b) ->
  bl_is_comp b = false ->
  post False (compress_block cd m i) (fun m' => inv m' cs /\ same m m' /\
    (count is_unc (cm_blocks m) = S (count is_unc (cm_blocks m')) \/
     (m' = m /\ incompressible_block cd ge))).
Proof.
  intros m i b cs Hinv Hb Hnc. pose proof Hinv as (HF & Hmem & Hn & Hd & Hc & Hl).
  unfold compress_block. rewrite Hb, Hnc.
  destruct (Forall2_nth_l _ _ _ _ _ _ _ HF Hb) as (row & Hrow & Hrep).
  pose proof Hrep as [Hlen Hr]. rewrite Hnc in Hr. destruct Hr as (Hdata & Hcomp & Hsz).
  rewrite Hdata. destruct (cd_comp cd row) as [z|] eqn:Ez; [|exists row; auto].
  destruct (Z.leb_spec (bl_size b) (Z.of_nat (length z) + PROPS)) as [Hle|Hgt].
  - simpl. split; [exact Hinv|]. split; [split; reflexivity|]. right. split; [reflexivity|].
    exists row, z. repeat split; auto. rewrite Hsz in Hle. unfold base_length, PROPS in Hle. lia.
  - set (nb := Some {| bl_data := None; bl_comp := Some z;
                       bl_size := (Z.of_nat (length z) + PROPS)%Z; bl_is_comp := true;
                       bl_timer := bl_timer b |}).
    pose proof (count_update is_cmp _ i _ nb Hb) as C1.
    pose proof (count_update is_unc _ i _ nb Hb) as C2.
    pose proof (count_update is_crt _ i _ nb Hb) as C3.
    pose proof (bsum_update _ i _ nb Hb) as C4. simpl in C1, C2, C3, C4.
    rewrite Hnc in C1, C2. simpl in C1, C2.
    simpl. split; [|split; [split; [reflexivity|eapply map_update; [exact Hb|reflexivity]]|left; lia]].
    split; [|split; [|split; [|split; [|split]]]]; simpl.
    + eapply Forall2_update_l; [exact HF|exact Hrow|].
      split; [exact Hlen|]. simpl. exists z. auto.
    + rewrite Hmem. unfold bytes_held. simpl. change (fold_right _ 0%Z ?l) with (bsum l).
      fold nb. lia.
    + rewrite Hn. fold nb. lia.
    + rewrite Hd. fold nb. lia.
    + rewrite Hc. fold nb. lia.
    + rewrite update_length. exact Hl.
Qed.

Lemma oldest_spec : forall bs i best j, oldest_from i bs best = Some j ->
  (exists t, best = Some (t, j)) \/
  (i <= j /\ exists b, nth_error bs (j - i) = Some (Some b) /\ bl_is_comp b = false).
Proof.
  induction bs as [|ob bs IH]; intros i best j H; simpl in H.
  - destruct best as [[t k]|]; [|discriminate]. injection H as <-. left. eauto.
  - assert (G : forall best', oldest_from (S i) bs best' = Some j ->
      (exists t, best' = Some (t, j)) \/
      (i <= j /\ exists b, nth_error (ob :: bs) (j - i) = Some (Some b) /\ bl_is_comp b = false)).
    { intros best' H'. destruct (IH (S i) best' j H') as [H1|(H1 & b & H2 & H3)]; [now left|].
      right. split; [lia|]. exists b. replace (j - i) with (S (j - S i)) by lia. auto. }
    destruct ob as [b|]; [|apply G; exact H].
    destruct (bl_is_comp b) eqn:Eb; [apply G; exact H|].
    apply G in H. destruct H as [(t & Ht)|H]; [|now right].
    destruct best as [[t0 k0]|].
    + destruct (bl_timer b <? t0).
      * injection Ht as _ <-. right. split; [lia|]. exists b. rewrite Nat.sub_diag. auto.
      * left. exists t. exact Ht.
    + injection Ht as _ <-. right. split; [lia|]. exists b. rewrite Nat.sub_diag. auto.
Qed.

Lemma forced_ok : forall m cs, inv m cs ->
  post False (forced_gc cd m) (fun r => inv (snd r) cs /\ same m (snd r) /\
    (fst r = false \/ count is_unc (cm_blocks m) = S (count is_unc (cm_blocks (snd r))) \/
     incompressible_block cd ge)).
Proof.
  intros m cs Hinv. unfold forced_gc.
  destruct (oldest_from 0 (cm_blocks m) None) as [i|] eqn:E.
  - apply oldest_spec in E. destruct E as [(t & E)|(_ & b & Hb & Hc)]; [discriminate|].
    rewrite Nat.sub_0_r in Hb.
    eapply post_bind; [apply (compress_ok m i b cs Hinv Hb Hc)|].
    intros m' (H1 & H2 & H3). simpl. split; [exact H1|]. split; [exact H2|]. destruct H3 as [H3|[_ H3]]; auto.
  - simpl. repeat split; auto; apply Hinv.
Qed.

Lemma gc_loop_ok : forall fuel m cs, inv m cs ->
  post (fuel <= count is_unc (cm_blocks m) \/ incompressible_block cd ge)
    (gc_loop cd th fuel m) (fun m' => inv m' cs /\ same m m').
Proof.
  induction fuel as [|fuel IH]; intros m cs Hinv; simpl; [left; lia|].
  eapply post_bind; [eapply post_mono; [apply (forced_ok m cs Hinv)|tauto|intros a Ha; exact Ha]|].
  intros [found m'] (H1 & H2 & H3). simpl in H1, H2, H3. cbn beta iota.
  destruct (found && negb (th_stop th (cm_mem m'))) eqn:Ef; [|simpl; auto].
  apply andb_prop in Ef. destruct Ef as [-> _].
  eapply post_mono; [apply (IH m' cs H1)| |].
  - intros [H|H]; [|now right]. destruct H3 as [H3|[H3|H3]]; [discriminate|left; lia|now right].
  - intros a [Ha Hb]. split; [exact Ha|eapply same_trans; eassumption].
Qed.

Lemma count_le : forall f l, count f l <= length l.
Proof.
  intros f l. unfold count. induction l as [|x l IH]; simpl; [lia|]. destruct (f x); simpl; lia.
Qed.

Definition stuck (fuel : nat) : Prop := fuel <= ge_nblocks ge \/ incompressible_block cd ge.

Lemma gc_ok : forall fuel m cs, inv m cs ->
  post (stuck fuel) (garbage_collection cd th fuel m) (fun m' => inv m' cs /\ same m m').
Proof.
  intros fuel m cs Hinv. unfold garbage_collection.
  destruct (th_start th (cm_mem m)); [|simpl; split; [exact Hinv|split; reflexivity]].
  eapply post_mono; [apply (gc_loop_ok fuel m cs Hinv)| |auto].
  intros [H|H]; [left|now right].
  pose proof (count_le is_unc (cm_blocks m)). destruct Hinv as (_ & _ & _ & _ & _ & Hl). lia.
Qed.

Lemma create_ok : forall fuel m i cs, inv m cs -> i < ge_nblocks ge ->
  post (stuck fuel) (create_block cd th ge fuel m i)
    (fun m' => inv m' cs /\ cm_size m' = cm_size m /\ exists b, nth_error (cm_blocks m') i = Some (Some b)).
Proof.
  intros fuel m i cs Hinv Hi. pose proof Hinv as (HF & Hmem & Hn & Hd & Hc & Hl).
  unfold create_block.
  destruct (nth_error (cm_blocks m) i) as [[b|]|] eqn:Hb.
  - simpl. eauto.
  - cbn zeta.
    set (nb := Some {| bl_data := Some (repeat C_UNCALCULATED (ge_elts ge)); bl_comp := None;
                       bl_size := base_length ge; bl_is_comp := false; bl_timer := 0 |}).
    match goal with |- context [touch ?x i] => set (m1 := x) end.
    destruct (Forall2_nth_l _ _ _ _ _ _ _ HF Hb) as (row & Hrow & Hlen & Hr).
    pose proof (count_update is_cmp _ i _ nb Hb) as C1.
    pose proof (count_update is_unc _ i _ nb Hb) as C2.
    pose proof (count_update is_crt _ i _ nb Hb) as C3.
    pose proof (bsum_update _ i _ nb Hb) as C4. simpl in C1, C2, C3, C4.
    assert (Hinv1 : inv m1 cs).
    { split; [|split; [|split; [|split; [|split]]]]; simpl.
      - eapply Forall2_update_l; [exact HF|exact Hrow|].
        split; [exact Hlen|]. simpl. rewrite Hr. auto.
      - rewrite Hmem. unfold bytes_held. simpl. change (fold_right _ 0%Z ?l) with (bsum l).
        fold nb. lia.
      - rewrite Hn. fold nb. lia.
      - rewrite Hd. fold nb. lia.
      - rewrite Hc. fold nb. lia.
      - rewrite update_length. exact Hl. }
    assert (Hb1 : exists b, nth_error (cm_blocks m1) i = Some (Some b)).
    { eexists. simpl. apply nth_error_update_same. lia. }
    destruct Hb1 as [b1 Hb1].
    destruct (touch_ok m1 i b1 cs Hinv1 Hb1) as (m2 & -> & Hinv2 & Hs2 & _ & _). cbn [rbind].
    eapply post_mono; [apply (gc_ok fuel m2 cs Hinv2)|auto|].
    intros m3 [H3 Hs3]. pose proof (same_trans _ _ _ Hs2 Hs3) as [Hs Hmap].
    split; [exact H3|]. split; [exact Hs|].
    assert (E : nth_error (map is_crt (cm_blocks m3)) i = Some true).
    { rewrite Hmap. rewrite nth_error_map, Hb1. reflexivity. }
    rewrite nth_error_map in E. destruct (nth_error (cm_blocks m3) i) as [[b3|]|]; try discriminate.
    eauto.
  - apply nth_error_None in Hb. lia.
Qed.

Lemma decompress_ok : forall fuel m i cs, inv m cs -> i < ge_nblocks ge ->
  post (stuck fuel) (decompress_block cd th ge fuel m i)
    (fun r => inv (snd r) cs /\ cm_size (snd r) = cm_size m /\
       exists b, nth_error (cm_blocks (snd r)) i = Some (Some b) /\ bl_is_comp b = false).
Proof.
  intros fuel m i cs Hinv Hi. unfold decompress_block.
  eapply post_bind; [apply (create_ok fuel m i cs Hinv Hi)|].
  intros m1 (H1 & Hs1 & b & Hb). rewrite Hb. pose proof H1 as (HF & Hmem & Hn & Hd & Hc & Hl).
  destruct (Forall2_nth_l _ _ _ _ _ _ _ HF Hb) as (row & Hrow & Hrep).
  pose proof Hrep as [Hlen Hr].
  destruct (bl_is_comp b) eqn:Ec.
  - destruct Hr as (z & Hz & Hdat & Hcz & Hsz). rewrite Hz, (Hll _ _ Hcz). cbn zeta.
    set (nb := Some {| bl_data := Some row; bl_comp := None; bl_size := base_length ge;
                       bl_is_comp := false; bl_timer := bl_timer b |}).
    match goal with |- context [touch ?x i] => set (m2 := x) end.
    pose proof (count_update is_cmp _ i _ nb Hb) as C1.
    pose proof (count_update is_unc _ i _ nb Hb) as C2.
    pose proof (count_update is_crt _ i _ nb Hb) as C3.
    pose proof (bsum_update _ i _ nb Hb) as C4. simpl in C1, C2, C3, C4.
    rewrite Ec in C1, C2. simpl in C1, C2.
    assert (Hinv2 : inv m2 cs).
    { split; [|split; [|split; [|split; [|split]]]]; simpl cm_blocks; simpl cm_mem; simpl cm_ncomp;
        simpl cm_ndecomp; simpl cm_created; simpl cm_decompressions.
      - eapply Forall2_update_l; [exact HF|exact Hrow|]. split; [exact Hlen|]. simpl. auto.
      - rewrite Hmem. unfold bytes_held. simpl cm_blocks. change (fold_right _ 0%Z ?l) with (bsum l).
        fold nb. rewrite C4. unfold PROPS. lia.
      - rewrite Hn. fold nb. lia.
      - rewrite Hd. fold nb. lia.
      - rewrite Hc. fold nb. lia.
      - rewrite update_length. exact Hl. }
    assert (Hb2 : nth_error (cm_blocks m2) i = Some nb).
    { simpl. apply nth_error_update_same. lia. }
    destruct (touch_ok m2 i _ cs Hinv2 Hb2) as (m3 & -> & H3 & [Hs3 _] & _ & b3 & Hb3 & Hc3).
    cbn [rbind post snd]. split; [exact H3|]. split; [rewrite Hs3; exact Hs1|]. exists b3. auto.
  - destruct (touch_ok m1 i _ cs H1 Hb) as (m3 & -> & H3 & [Hs3 _] & _ & b3 & Hb3 & Hc3).
    cbn [rbind post snd]. split; [exact H3|]. split; [rewrite Hs3; exact Hs1|]. exists b3.
    split; [exact Hb3|congruence].
Qed.

(** The cells the matrix holds, by coordinate. *)
Variable deeps : list nat.
Hypothesis Hge : good_geometry deeps ge.

Definition rep (m : cmatrix) (f : list nat -> Z) : Prop :=
  exists cs, inv m cs /\
    forall c, in_range deeps c ->
      exists row, nth_error cs (block_num ge c) = Some row /\ nth_error row (block_offset ge c) = Some (f c).

Definition fupd (f : list nat -> Z) (c : list nat) (v : Z) : list nat -> Z :=
  fun c' => if coord_eq_dec c c' then v else f c'.

Lemma read_ok : forall m i b cs row y v, inv m cs -> nth_error (cm_blocks m) i = Some (Some b) ->
  bl_is_comp b = false -> nth_error cs i = Some row -> nth_error row y = Some v ->
  bl_data b = Some row /\ read_cell m i y = Ok v.
Proof.
  intros m i b cs row y v (HF & _) Hb Hc Hrow Hv.
  destruct (Forall2_nth_l _ _ _ _ _ _ _ HF Hb) as (row' & Hrow' & Hlen & Hr).
  rewrite Hrow in Hrow'. injection Hrow' as <-. rewrite Hc in Hr. destruct Hr as (Hd & _ & _).
  split; [exact Hd|]. unfold read_cell. rewrite Hb, Hd, Hv. reflexivity.
Qed.

Lemma cm_get_ok : forall fuel m f c, rep m f -> in_range deeps c ->
  post (stuck fuel) (cm_get cd th ge fuel m c)
    (fun r => fst r = f c /\ rep (snd r) f /\ cm_size (snd r) = cm_size m).
Proof.
  intros fuel m f c (cs & Hinv & Hf) Hc. unfold cm_get. cbn zeta.
  destruct Hge as [Hg _]. destruct (Hg c Hc) as [Hx Hy].
  eapply post_bind; [apply (decompress_ok fuel m _ cs Hinv Hx)|].
  intros [dec m1] (H1 & Hs1 & b & Hb & Hbc). simpl in H1, Hs1, Hb. cbn beta iota.
  destruct (Hf c Hc) as (row & Hrow & Hv).
  destruct (read_ok m1 _ b cs row _ _ H1 Hb Hbc Hrow Hv) as [_ ->]. cbn [rbind].
  eapply post_bind with (P := fun m2 => inv m2 cs /\ same m1 m2).
  - destruct dec; [apply gc_ok; exact H1|]. simpl. split; [exact H1|split; reflexivity].
  - intros m2 [H2 [Hs2 _]]. simpl. split; [reflexivity|]. split; [|congruence].
    exists cs. auto.
Qed.

Lemma cm_set_ok : forall fuel m f c v, rep m f -> in_range deeps c ->
  post (stuck fuel) (cm_set cd th ge fuel m c v)
    (fun m' => rep m' (fupd f c v) /\
       cm_size m' = if Z.eqb (f c) C_UNCALCULATED then S (cm_size m) else cm_size m).
Proof.
  intros fuel m f c v (cs & Hinv & Hf) Hc. unfold cm_set. cbn zeta.
  destruct Hge as [Hg Hinj]. destruct (Hg c Hc) as [Hx Hy].
  eapply post_bind; [apply (decompress_ok fuel m _ cs Hinv Hx)|].
  intros [dec m1] (H1 & Hs1 & b & Hb & Hbc). simpl in H1, Hs1, Hb. cbn beta iota.
  destruct (Hf c Hc) as (row & Hrow & Hv).
  destruct (read_ok m1 _ b cs row _ _ H1 Hb Hbc Hrow Hv) as [Hdat ->]. cbn [rbind].
  unfold write_cell. rewrite Hb, Hdat. cbn [rbind].
  match goal with |- context [if dec then _ _ _ _ ?x else _] => set (m2 := x) end.
  pose proof H1 as (HF & Hmem & Hn & Hd & Hcr & Hl).
  destruct (Forall2_nth_l _ _ _ _ _ _ _ HF Hb) as (row' & Hrow' & Hlen & Hr).
  rewrite Hrow in Hrow'. injection Hrow' as <-. rewrite Hbc in Hr. destruct Hr as (_ & Hcomp & Hsz).
  set (cs' := update cs (block_num ge c) (update row (block_offset ge c) v)).
  set (nb := Some {| bl_data := Some (update row (block_offset ge c) v); bl_comp := bl_comp b;
                     bl_size := bl_size b; bl_is_comp := bl_is_comp b; bl_timer := bl_timer b |}).
  pose proof (count_update is_cmp _ _ _ nb Hb) as C1.
  pose proof (count_update is_unc _ _ _ nb Hb) as C2.
  pose proof (count_update is_crt _ _ _ nb Hb) as C3.
  pose proof (bsum_update _ _ _ nb Hb) as C4. simpl in C1, C2, C3, C4.
  rewrite Hbc in C1, C2. simpl in C1, C2.
  assert (Hinv2 : inv m2 cs').
  { split; [|split; [|split; [|split; [|split]]]]; cbn [cm_blocks cm_mem cm_ncomp cm_ndecomp cm_created cm_decompressions m2].
    - apply Forall2_update; [exact HF|]. split; [rewrite update_length; exact Hlen|].
      simpl. rewrite Hbc. auto.
    - rewrite Hmem. unfold bytes_held. simpl cm_blocks. change (fold_right _ 0%Z ?l) with (bsum l).
      fold nb. rewrite C4. lia.
    - rewrite Hn. fold nb. lia.
    - rewrite Hd. fold nb. lia.
    - rewrite Hcr. fold nb. lia.
    - rewrite update_length. exact Hl. }
  assert (Hf' : forall c', in_range deeps c' -> exists row0, nth_error cs' (block_num ge c') = Some row0 /\
     nth_error row0 (block_offset ge c') = Some (fupd f c v c')).
  { intros c' Hc'. unfold cs'. destruct (Hf c' Hc') as (row1 & Hr1 & Hv1).
    pose proof (Forall2_len _ _ _ _ _ HF) as Hcl.
    destruct (Nat.eq_dec (block_num ge c) (block_num ge c')) as [En|En].
    - rewrite <- En. eexists. split; [apply nth_error_update_same; lia|].
      rewrite <- En in Hr1. rewrite Hrow in Hr1. injection Hr1 as <-. unfold fupd.
      destruct (coord_eq_dec c c') as [<-|Hne].
      + apply nth_error_update_same. lia.
      + rewrite nth_error_update_other; [exact Hv1|]. intros Eo. apply Hne. apply Hinj; auto.
    - exists row1. split; [rewrite nth_error_update_other; [exact Hr1|congruence]|].
      unfold fupd. destruct (coord_eq_dec c c') as [<-|Hne]; [congruence|exact Hv1]. }
  assert (Hsz2 : cm_size m2 = if Z.eqb (f c) C_UNCALCULATED then S (cm_size m) else cm_size m).
  { simpl. rewrite Hs1. reflexivity. }
  destruct dec.
  - eapply post_mono; [apply (gc_ok fuel m2 cs' Hinv2)|auto|].
    intros m3 [H3 [Hs3 _]]. split; [exists cs'; auto|congruence].
  - simpl. split; [exists cs'; auto|exact Hsz2].
Qed.

Lemma cm_new_rep : rep (cm_new ge) (fun _ => C_UNCALCULATED).
Proof.
  exists (repeat (repeat C_UNCALCULATED (ge_elts ge)) (ge_nblocks ge)). split.
  - assert (Hz : forall f n, f None = false -> count f (repeat None n) = 0).
    { intros f n Hf. unfold count. induction n; simpl; [reflexivity|]. rewrite Hf. exact IHn. }
    split; [|split; [|split; [|split; [|split]]]]; simpl.
    + induction (ge_nblocks ge); simpl; constructor; auto. split; [apply repeat_length|reflexivity].
    + unfold bytes_held. simpl. induction (ge_nblocks ge); simpl; auto.
    + rewrite Hz; reflexivity.
    + rewrite Hz; reflexivity.
    + rewrite Hz; reflexivity.
    + apply repeat_length.
  - intros c Hc. destruct Hge as [Hg _]. destruct (Hg c Hc) as [Hx Hy].
    eexists. split; [apply nth_error_repeat; exact Hx|]. apply nth_error_repeat. exact Hy.
Qed.

(** ** The plain matrix, in the same terms *)
Definition arep (m : array_matrix) (f : list nat -> Z) : Prop :=
  am_mult m = multiplicators 1 deeps /\ am_max m = max_size deeps /\
  length (am_cost m) = max_size deeps /\
  forall c, in_range deeps c -> nth_error (am_cost m) (dot (multiplicators 1 deeps) c) = Some (f c).

Lemma arep_new : arep (array_new deeps) (fun _ => C_UNCALCULATED).
Proof.
  split; [reflexivity|]. split; [reflexivity|]. split; [apply repeat_length|].
  intros c Hc. simpl. apply nth_error_repeat. apply dot_lt_max. exact Hc.
Qed.

Lemma arep_index : forall m f c, arep m f -> in_range deeps c ->
  coordinates_to_size m c = Some (dot (multiplicators 1 deeps) c).
Proof.
  intros m f c (H1 & H2 & _) Hc. unfold coordinates_to_size. rewrite H1, H2.
  pose proof (dot_lt_max deeps c Hc). destruct (Nat.leb_spec (max_size deeps) (dot (multiplicators 1 deeps) c)); [lia|reflexivity].
Qed.

Lemma arep_get : forall m f c, arep m f -> in_range deeps c -> array_get m c = Some (f c).
Proof.
  intros m f c H Hc. unfold array_get. rewrite (arep_index m f c H Hc). apply H. exact Hc.
Qed.

Lemma arep_set : forall m f c v, arep m f -> in_range deeps c ->
  exists m', array_set m c v = Some m' /\ arep m' (fupd f c v) /\
    am_size m' = if Z.eqb (f c) C_UNCALCULATED then S (am_size m) else am_size m.
Proof.
  intros m f c v H Hc. unfold array_set. rewrite (arep_index m f c H Hc).
  destruct H as (H1 & H2 & H3 & H4). rewrite (H4 c Hc). eexists. split; [reflexivity|].
  split; [|reflexivity]. split; [exact H1|]. split; [exact H2|]. simpl.
  split; [rewrite update_length; exact H3|]. intros c' Hc'. unfold fupd.
  destruct (coord_eq_dec c c') as [<-|Hne].
  - apply nth_error_update_same. rewrite H3. apply dot_lt_max. exact Hc.
  - rewrite nth_error_update_other; [apply H4; exact Hc'|].
    intros E. apply Hne. eapply dot_inj; eassumption.
Qed.

Lemma run_agree : forall fuel ops m ma f, Forall (op_in_range deeps) ops ->
  rep m f -> arep ma f -> cm_size m = am_size ma ->
  exists vs ma', array_ops ma ops = Some (vs, ma') /\
    post (stuck fuel) (cm_run cd th ge fuel m ops)
      (fun r => fst r = vs /\ cm_size (snd r) = am_size ma' /\ exists f', rep (snd r) f').
Proof.
  intros fuel. induction ops as [|o ops IH]; intros m ma f HF Hr Ha Hs.
  - exists [], ma. split; [reflexivity|]. simpl. eauto.
  - inversion HF as [|? ? Ho HF']; subst. destruct o as [c|c v]; simpl in Ho.
    + simpl. rewrite (arep_get ma f c Ha Ho).
      pose proof (cm_get_ok fuel m f c Hr Ho) as HG.
      (* the rest of the plain run does not depend on the compressed one *)
      destruct (IH m ma f HF' Hr Ha Hs) as (vs & ma' & Ea & _).
      exists (f c :: vs), ma'. rewrite Ea. split; [reflexivity|].
      eapply post_bind; [exact HG|]. intros [v m1] (Hv & Hr1 & Hs1). simpl in Hv, Hr1, Hs1.
      cbn beta iota. destruct (IH m1 ma f HF' Hr1 Ha ltac:(congruence)) as (vs' & ma'' & Ea' & Hp).
      rewrite Ea in Ea'. injection Ea' as <- <-.
      eapply post_bind; [exact Hp|]. intros [ws m2] (Hw & Hs2 & Hex). simpl in Hw, Hs2, Hex.
      simpl. split; [congruence|]. auto.
    + simpl. destruct (arep_set ma f c v Ha Ho) as (ma1 & Ea1 & Ha1 & Hsz).
      rewrite Ea1. pose proof (cm_set_ok fuel m f c v Hr Ho) as HS.
      assert (Htot : forall ops ma f, Forall (op_in_range deeps) ops -> arep ma f ->
        exists r, array_ops ma ops = Some r).
      { clear - Hge. induction ops as [|o ops IH]; intros ma f HF Ha; [simpl; eauto|].
        inversion HF as [|? ? Ho HF']; subst. destruct o as [c|c v]; simpl in Ho; simpl.
        - rewrite (arep_get ma f c Ha Ho). destruct (IH ma f HF' Ha) as [r ->]. simpl. eauto.
        - destruct (arep_set ma f c v Ha Ho) as (ma1 & -> & Ha1 & _). apply (IH ma1 _ HF' Ha1). }
      destruct (Htot ops ma1 _ HF' Ha1) as [[vs ma'] Er].
      exists vs, ma'. split; [exact Er|].
      eapply post_bind; [exact HS|]. intros m1 (Hr1 & Hs1).
      destruct (IH m1 ma1 _ HF' Hr1 Ha1) as (vs' & ma'' & Er' & Hp).
      { rewrite Hs1, Hsz, Hs. reflexivity. }
      rewrite Er in Er'. injection Er' as <- <-. exact Hp.
Qed.

End Inv.
