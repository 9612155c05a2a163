From Coq Require Import List ZArith Arith Lia.
From Verif Require Import Matrix_Model Matrix_Spec.
Import ListNotations.

Lemma dot_scale : forall deep acc cs,
  dot (multiplicators acc deep) cs = acc * dot (multiplicators 1 deep) cs.
Proof.
  induction deep as [|d rest IH]; intros acc cs; simpl.
  - destruct cs; lia.
  - destruct cs as [|c cs]; [lia|].
    rewrite (IH (acc * (d - 1))). rewrite (IH (d - 1 + 0)).
    nia.
Qed.

Lemma dot_cons : forall d rest c cs,
  dot (multiplicators 1 (d :: rest)) (c :: cs)
  = c + (d - 1) * dot (multiplicators 1 rest) cs.
Proof.
  intros. cbn [multiplicators dot]. rewrite (dot_scale rest (1 * (d - 1))).
  rewrite !Nat.mul_1_l. reflexivity.
Qed.

Lemma dot_lt_max : forall deep cs,
  in_range deep cs -> dot (multiplicators 1 deep) cs < max_size deep.
Proof.
  unfold in_range. intros deep cs H. induction H as [|d c deep cs Hc HF IH].
  - simpl. lia.
  - rewrite dot_cons. cbn [max_size]. nia.
Qed.

Lemma dot_inj : forall deep cs1 cs2,
  in_range deep cs1 -> in_range deep cs2 ->
  dot (multiplicators 1 deep) cs1 = dot (multiplicators 1 deep) cs2 -> cs1 = cs2.
Proof.
  unfold in_range. intros deep cs1 cs2 H1. revert cs2.
  induction H1 as [|d c deep cs Hc HF IH]; intros cs2 H2 E.
  - inversion H2. reflexivity.
  - inversion H2 as [|? c2 ? cs2' Hc2 HF2]; subst.
    rewrite !dot_cons in E.
    assert (c = c2 /\ dot (multiplicators 1 deep) cs = dot (multiplicators 1 deep) cs2') as [-> E2].
    { set (x := dot (multiplicators 1 deep) cs) in *.
      set (y := dot (multiplicators 1 deep) cs2') in *.
      assert (x = y). { destruct (Nat.lt_trichotomy x y) as [L|[L|L]]; [nia|assumption|nia]. }
      subst x. rewrite H in E. split; [lia|exact H]. }
    f_equal. apply IH; assumption.
Qed.

Lemma update_length : forall A (l : list A) n v, length (update l n v) = length l.
Proof. induction l; intros [|n] v; simpl; auto. Qed.

Lemma nth_error_update_same : forall A (l : list A) n v,
  n < length l -> nth_error (update l n v) n = Some v.
Proof.
  induction l; intros [|n] v H; simpl in *; try lia; auto. apply IHl. lia.
Qed.

Lemma nth_error_update_other : forall A (l : list A) n k v,
  n <> k -> nth_error (update l n v) k = nth_error l k.
Proof.
  induction l; intros [|n] [|k] v H; simpl; auto; try lia.
Qed.

Lemma last_write_snoc : forall ws c v c',
  last_write (ws ++ [(c, v)]) c' = if coord_eq_dec c c' then Some v else last_write ws c'.
Proof.
  induction ws as [|[c0 v0] ws IH]; intros c v c'; simpl.
  - destruct (coord_eq_dec c c'); reflexivity.
  - rewrite IH. destruct (coord_eq_dec c c'); reflexivity.
Qed.

Lemma last_write_None : forall ws c, last_write ws c = None <-> ~ In c (map fst ws).
Proof.
  induction ws as [|[c0 v0] ws IH]; intros c; simpl.
  - tauto.
  - specialize (IH c). destruct (last_write ws c) eqn:E.
    + split; [discriminate|]. intros H. exfalso.
      assert (~ In c (map fst ws)) by tauto. apply IH in H0. discriminate.
    + destruct (coord_eq_dec c0 c).
      * split; [discriminate|tauto].
      * split; [intros _ [?|?]; [tauto|apply IH in H; tauto]|tauto].
Qed.

Lemma last_write_Some_in : forall ws c v, last_write ws c = Some v -> In (c, v) ws.
Proof.
  induction ws as [|[c0 v0] ws IH]; intros c v; simpl; [discriminate|].
  destruct (last_write ws c) eqn:E.
  - intros H. injection H as <-. right. apply IH. exact E.
  - destruct (coord_eq_dec c0 c); [|discriminate]. intros H. injection H as <-. subst. now left.
Qed.

Lemma length_nodup_snoc : forall (l : list (list nat)) x,
  length (nodup coord_eq_dec (l ++ [x])) =
  if in_dec coord_eq_dec x l then length (nodup coord_eq_dec l) else S (length (nodup coord_eq_dec l)).
Proof.
  induction l as [|a l IH]; intros x; [reflexivity|].
  specialize (IH x). cbn [app nodup].
  destruct (in_dec coord_eq_dec a (l ++ [x])) as [Hin|Hin];
  destruct (in_dec coord_eq_dec a l) as [Hal|Hal];
  destruct (in_dec coord_eq_dec x l) as [Hxl|Hxl];
  destruct (in_dec coord_eq_dec x (a :: l)) as [Hx|Hx]; cbn [length]; rewrite IH;
  try reflexivity; exfalso;
  try (apply in_app_or in Hin); try (rewrite in_app_iff in Hin); cbn [In] in *;
  intuition (subst; tauto).
Qed.

Lemma array_run_snoc : forall ws m c v,
  array_run m (ws ++ [(c, v)]) =
  match array_run m ws with None => None | Some m' => array_set m' c v end.
Proof.
  induction ws as [|[c0 v0] ws IH]; intros m c v; simpl.
  - destruct (array_set m c v); reflexivity.
  - destruct (array_set m c0 v0); [apply IH|reflexivity].
Qed.

Definition value_after (ws : list (list nat * Z)) (c : list nat) : Z :=
  match last_write ws c with Some v => v | None => C_UNCALCULATED end.

Lemma array_run_inv : forall deep ws,
  Forall (fun w => in_range deep (fst w)) ws ->
  exists m, array_run (array_new deep) ws = Some m
    /\ am_mult m = multiplicators 1 deep /\ am_max m = max_size deep
    /\ length (am_cost m) = max_size deep
    /\ (forall c, in_range deep c ->
          nth_error (am_cost m) (dot (multiplicators 1 deep) c) = Some (value_after ws c))
    /\ (Forall (fun w => snd w <> C_UNCALCULATED) ws -> am_size m = distinct_written ws).
Proof.
  intros deep ws. induction ws as [|[c v] ws IH] using rev_ind; intros HF.
  - exists (array_new deep). simpl. repeat split; try reflexivity.
    + apply repeat_length.
    + intros c Hc. rewrite nth_error_repeat; [reflexivity|]. apply dot_lt_max. exact Hc.
  - apply Forall_app in HF. destruct HF as [HF Hc]. inversion Hc as [|? ? Hc' _]; subst.
    simpl in Hc'.
    destruct (IH HF) as (m & Hrun & Hmu & Hmx & Hlen & Hget & Hsz).
    rewrite array_run_snoc, Hrun. unfold array_set, coordinates_to_size.
    rewrite Hmu, Hmx. pose proof (dot_lt_max _ _ Hc') as Hlt.
    destruct (Nat.leb_spec (max_size deep) (dot (multiplicators 1 deep) c)); [lia|].
    rewrite (Hget c Hc').
    eexists. split; [reflexivity|]. simpl.
    split; [reflexivity|]. split; [reflexivity|]. split; [rewrite update_length; exact Hlen|].
    split.
    + intros c' Hc2. unfold value_after. rewrite last_write_snoc.
      destruct (coord_eq_dec c c') as [->|Hne].
      * apply nth_error_update_same. rewrite Hlen. exact Hlt.
      * rewrite nth_error_update_other; [apply Hget; exact Hc2|].
        intros E. apply Hne. eapply dot_inj; eassumption.
    + intros Hnz. apply Forall_app in Hnz. destruct Hnz as [Hnz _].
      rewrite (Hsz Hnz). unfold distinct_written. rewrite map_app. simpl.
      rewrite length_nodup_snoc. unfold value_after.
      destruct (last_write ws c) eqn:E.
      * assert (z <> C_UNCALCULATED).
        { apply last_write_Some_in in E. rewrite Forall_forall in Hnz. apply (Hnz _ E). }
        destruct (Z.eqb_spec z C_UNCALCULATED); [tauto|].
        destruct (in_dec coord_eq_dec c (map fst ws)) as [Hi|Hi]; [reflexivity|].
        apply last_write_None in Hi. congruence.
      * apply last_write_None in E.
        destruct (in_dec coord_eq_dec c (map fst ws)) as [Hi|Hi]; [tauto|].
        rewrite Z.eqb_refl. reflexivity.
Qed.

Lemma array_addressing_proof : forall deep c1 c2 i1 i2,
  in_range deep c1 -> in_range deep c2 ->
  coordinates_to_size (array_new deep) c1 = Some i1 ->
  coordinates_to_size (array_new deep) c2 = Some i2 ->
  i1 = i2 -> c1 = c2.
Proof.
  intros deep c1 c2 i1 i2 H1 H2 E1 E2 E. unfold coordinates_to_size in *. simpl in *.
  destruct (max_size deep <=? dot (multiplicators 1 deep) c1); [discriminate|].
  destruct (max_size deep <=? dot (multiplicators 1 deep) c2); [discriminate|].
  eapply dot_inj; [eassumption..|congruence].
Qed.

Lemma array_in_bounds_proof : forall deep c,
  in_range deep c ->
  exists i, coordinates_to_size (array_new deep) c = Some i /\
            i < length (am_cost (array_new deep)).
Proof.
  intros deep c H. unfold coordinates_to_size. simpl. rewrite repeat_length.
  pose proof (dot_lt_max _ _ H) as Hlt.
  destruct (Nat.leb_spec (max_size deep) (dot (multiplicators 1 deep) c)); [lia|].
  eexists. split; [reflexivity|lia].
Qed.

Lemma array_store_proof : forall deep ws c,
  Forall (fun w => in_range deep (fst w)) ws -> in_range deep c ->
  exists m, array_run (array_new deep) ws = Some m /\
    array_get m c = Some (match last_write ws c with Some v => v | None => C_UNCALCULATED end).
Proof.
  intros deep ws c HF Hc.
  destruct (array_run_inv deep ws HF) as (m & Hrun & Hmu & Hmx & Hlen & Hget & _).
  exists m. split; [exact Hrun|]. unfold array_get, coordinates_to_size.
  rewrite Hmu, Hmx. pose proof (dot_lt_max _ _ Hc).
  destruct (Nat.leb_spec (max_size deep) (dot (multiplicators 1 deep) c)); [lia|].
  rewrite (Hget c Hc). reflexivity.
Qed.

Lemma array_count_proof : forall deep ws,
  Forall (fun w => in_range deep (fst w)) ws ->
  Forall (fun w => snd w <> C_UNCALCULATED) ws ->
  exists m, array_run (array_new deep) ws = Some m /\
    array_number_calculated m = distinct_written ws.
Proof.
  intros deep ws HF Hnz.
  destruct (array_run_inv deep ws HF) as (m & Hrun & _ & _ & _ & _ & Hsz).
  exists m. split; [exact Hrun|apply Hsz; exact Hnz].
Qed.
