(** Indexes, coordinates and single steps of the alignment graph. *)
From Coq Require Import List ZArith Arith Bool String Lia.
From Verif Require Import Base Matrix_Model Matrix_Spec Matrix_Proofs Graph_Model Graph_Spec.
Import ListNotations.
Open Scope res_scope.

(** ** Membership and token indexes *)

Lemma mem_In : forall t l, mem t l = true <-> In t l.
Proof.
  induction l as [|x l IH]; simpl; [split; [discriminate|tauto]|].
  destruct (Nat.eqb_spec x t) as [->|Hne].
  - split; [intros _; now left|reflexivity].
  - rewrite IH. split; [tauto|]. intros [H|H]; [congruence|assumption].
Qed.

Lemma mem_false : forall t l, mem t l = false <-> ~ In t l.
Proof.
  intros t l. rewrite <- mem_In. destruct (mem t l); split; congruence.
Qed.

Lemma tif_notin : forall l k d t, ~ In t l -> token_index_from k d t l = d.
Proof.
  induction l as [|x l IH]; intros k d t H; simpl; [reflexivity|].
  destruct (Nat.eqb_spec x t) as [->|Hne].
  - exfalso. apply H. now left.
  - apply IH. intros Hi. apply H. now right.
Qed.

Lemma tif_in : forall l k d t, In t l ->
  exists i, nth_error l i = Some t /\ token_index_from k d t l = k + i.
Proof.
  induction l as [|x l IH]; intros k d t H; [destruct H|]. simpl.
  destruct (in_dec Nat.eq_dec t l) as [Hi|Hi].
  - destruct (IH (S k) (if Nat.eqb x t then k else d) t Hi) as (i & H1 & H2).
    exists (S i). split; [exact H1|]. rewrite H2. lia.
  - destruct H as [->|H]; [|contradiction]. rewrite Nat.eqb_refl, tif_notin by assumption.
    exists 0. split; [reflexivity|lia].
Qed.

Lemma index_notin : forall d t, ~ In t (d_toks d) -> token_index d t = 0.
Proof. intros. apply tif_notin. assumption. Qed.

(** Token at index [k] of dimension [d], as an option. *)
Definition tokd (d : dimension) (k : nat) : option nat :=
  match k with 0 => None | S i => nth_error (d_toks d) i end.

Lemma vec_at_tokd : forall d k t, k <= List.length (d_toks d) ->
  (vec_at d k = Some (Some t) <-> tokd d k = Some t).
Proof.
  intros d [|k] t H; unfold vec_at; simpl.
  - split; discriminate.
  - rewrite nth_error_app1 by (rewrite map_length; lia).
    rewrite nth_error_map. destruct (nth_error (d_toks d) k); simpl; split; congruence.
Qed.

Lemma tokd_Some : forall d k, k <= List.length (d_toks d) -> k <> 0 ->
  exists t, tokd d k = Some t /\ In t (d_toks d).
Proof.
  intros d [|k] H Hk; [tauto|]. simpl.
  destruct (nth_error (d_toks d) k) eqn:E.
  - exists n. split; [reflexivity|]. eapply nth_error_In; eassumption.
  - apply nth_error_None in E. lia.
Qed.

Lemma tokd_index : forall d t, In t (d_toks d) ->
  token_index d t <> 0 /\ token_index d t <= List.length (d_toks d) /\
  tokd d (token_index d t) = Some t.
Proof.
  intros d t Hi. destruct (tif_in (d_toks d) 1 0 t Hi) as (i & Hi' & E). clear Hi. rename Hi' into Hi.
  unfold token_index. rewrite E. split; [lia|]. split.
  - assert (i < List.length (d_toks d)) by (apply nth_error_Some; congruence); lia.
  - exact Hi.
Qed.

Lemma tokd_In : forall d k t, tokd d k = Some t -> In t (d_toks d).
Proof. intros d [|k] t; simpl; [discriminate|]. apply nth_error_In. Qed.

Lemma tokd_le : forall d k t, tokd d k = Some t -> k <= List.length (d_toks d).
Proof.
  intros d [|k] t; simpl; [discriminate|]. intros H.
  assert (k < List.length (d_toks d)) by (apply nth_error_Some; congruence). lia.
Qed.

(** ** Previous indexes *)

Lemma fold_push_In : forall (f : nat -> nat) ps acc x,
  In x (fold_left (fun a p => f p :: a) ps acc) <-> In x acc \/ exists p, In p ps /\ x = f p.
Proof.
  induction ps as [|p ps IH]; intros acc x; simpl.
  - split; [tauto|]. intros [H|[? [[] _]]]; assumption.
  - rewrite IH. simpl. split.
    + intros [[H|H]|(q & Hq & ->)]; [right; exists p; auto|tauto|right; exists q; auto].
    + intros [H|(q & [->|Hq] & ->)]; [tauto|tauto|right; exists q; auto].
Qed.

Lemma prev_scan_sound : forall e d t fs b acc x,
  In x (prev_scan e d t fs b acc) ->
  x = 0 \/ In x acc \/ exists p, In p (te_prec e t) /\ x = token_index d p.
Proof.
  intros e d t fs. induction fs as [|f fs IH]; intros b acc x H; simpl in H; [tauto|].
  destruct (Nat.eqb f t && negb b).
  - apply IH in H. simpl in H. destruct H as [H|[[H|H]|H]]; auto.
  - destruct (te_prec e t) as [|q qs] eqn:E.
    + apply IH in H. simpl in H. destruct H as [H|[[H|H]|(p & [] & _)]]; auto.
    + rewrite <- E in *. apply IH in H.
      destruct H as [H|[H|H]]; [auto| |auto].
      change (In x (fold_left (fun a p => token_index d p :: a) (q :: qs) acc)) in H.
      apply fold_push_In in H. rewrite <- E in H. tauto.
Qed.

Lemma prev_scan_mono : forall e d t fs b acc x,
  In x acc -> In x (prev_scan e d t fs b acc).
Proof.
  intros e d t fs. induction fs as [|f fs IH]; intros b acc x H; cbn [prev_scan]; [exact H|].
  destruct (Nat.eqb f t && negb b); [apply IH; now right|].
  destruct (te_prec e t) as [|q qs] eqn:E; [apply IH; now right|].
  apply IH. apply fold_push_In. now left.
Qed.

Lemma prev_scan_has0 : forall e d t fs acc,
  In t fs -> In 0 (prev_scan e d t fs false acc).
Proof.
  intros e d t fs. induction fs as [|f fs IH]; intros acc H; [destruct H|]. cbn [prev_scan].
  destruct (Nat.eqb_spec f t) as [->|Hne]; cbn [andb negb].
  - apply prev_scan_mono. now left.
  - destruct H as [H|H]; [congruence|]. destruct (te_prec e t); apply IH; exact H.
Qed.

Lemma prev_scan_has_prec : forall e d t fs b acc p,
  (exists f, In f fs /\ f <> t) -> In p (te_prec e t) ->
  In (token_index d p) (prev_scan e d t fs b acc).
Proof.
  intros e d t fs. induction fs as [|f fs IH]; intros b acc p (f' & Hf & Hne) Hp; [destruct Hf|].
  cbn [prev_scan]. destruct (Nat.eqb_spec f t) as [->|Hft].
  - destruct Hf as [->|Hf]; [congruence|]. destruct b; cbn [andb negb].
    + destruct (te_prec e t) as [|q qs] eqn:E; [destruct Hp|]. rewrite <- E in *. apply IH; [exists f'; auto|exact Hp].
    + apply IH; [exists f'; auto|exact Hp].
  - cbn [andb]. destruct (te_prec e t) as [|q qs] eqn:E; [destruct Hp|]. rewrite <- E in *.
    apply prev_scan_mono. apply fold_push_In. right. exists p. auto.
Qed.

Lemma prev_scan_other_In : forall e d t fs acc x,
  ~ In t fs -> te_prec e t <> [] ->
  (In x (prev_scan e d t fs false acc) <->
   In x acc \/ (fs <> [] /\ exists p, In p (te_prec e t) /\ x = token_index d p)).
Proof.
  intros e d t fs. induction fs as [|f fs IH]; intros acc x Hnot Hne; cbn [prev_scan].
  - split; [tauto|]. intros [H|[H _]]; [assumption|tauto].
  - assert (Hft : Nat.eqb f t = false).
    { apply Nat.eqb_neq. intros ->. apply Hnot. now left. }
    rewrite Hft. cbn [andb].
    destruct (te_prec e t) as [|q qs] eqn:E; [tauto|].
    rewrite IH; [|intros Hi; apply Hnot; now right|congruence].
    rewrite fold_push_In. split.
    + intros [[H|H]|[_ H]]; [tauto| |]; right; (split; [discriminate|exact H]).
    + intros [H|[_ H]]; [tauto|]. left. right. exact H.
Qed.

Lemma previous_indexes_spec : forall e d k t,
  wf_dim e d -> tokd d k = Some t ->
  exists l, previous_indexes e d k = Ok l /\ l <> [] /\
    forall x, In x l <-> (In t (d_first d) /\ x = 0) \/
                        (exists p, In p (te_prec e t) /\ In p (d_toks d) /\ x = token_index d p).
Proof.
  intros e d k t (Hf & Hl & Hne & Hfp & Hp) Ht.
  pose proof (tokd_le _ _ _ Ht) as Hk. pose proof (tokd_In _ _ _ Ht) as Hin.
  unfold previous_indexes.
  destruct (Nat.eqb_spec k 0) as [->|Hk0]; [discriminate|].
  unfold deep. destruct (Nat.eqb_spec k (List.length (d_toks d) + 2 - 1)) as [Hd|_]; [lia|].
  apply vec_at_tokd in Ht; [|exact Hk]. rewrite Ht.
  eexists. split; [reflexivity|].
  assert (Hfne : d_first d <> []) by (apply Hne; intros E; rewrite E in Hin; exact Hin).
  destruct (in_dec Nat.eq_dec t (d_first d)) as [Hft|Hft].
  - pose proof (prev_scan_has0 e d t (d_first d) [] Hft) as H0.
    split; [intros E; rewrite E in H0; exact H0|].
    intros x. split.
    + intros H. apply prev_scan_sound in H.
      destruct H as [->|[[]|(p & Hpp & ->)]]; [left; auto|].
      destruct (in_dec Nat.eq_dec p (d_toks d)) as [Hpi|Hpi].
      * right. exists p. auto.
      * left. split; [exact Hft|]. apply index_notin. exact Hpi.
    + intros [[_ ->]|(p & Hpp & Hpi & ->)]; [exact H0|].
      apply prev_scan_has_prec; [|exact Hpp]. eapply Hfp; eassumption.
  - destruct (Hp t Hin Hft) as [Hpn Hpin]. split.
    + destruct (te_prec e t) as [|q qs] eqn:E; [tauto|].
      assert (Hq : In (token_index d q) (prev_scan e d t (d_first d) false [])).
      { apply prev_scan_other_In; [assumption|congruence|]. right. split; [assumption|].
        exists q. rewrite E. split; [now left|reflexivity]. }
      intros E2. rewrite E2 in Hq. exact Hq.
    + intros x. rewrite prev_scan_other_In by assumption. simpl. split.
      * intros [[]|[_ (p & H1 & H2)]]. right. exists p. auto.
      * intros [[H _]|(p & H1 & H2 & H3)]; [tauto|]. right. split; [exact Hfne|]. exists p. auto.
Qed.

(** ** Coordinates *)

Definition valid (g : graph) (c : list nat) : Prop :=
  Forall2 (fun d k => k <= List.length (d_toks d)) (g_dims g) c.

Lemma valid_length : forall g c, valid g c -> List.length c = List.length (g_dims g).
Proof. intros g c H. induction H; simpl; congruence. Qed.

Lemma Forall2_nth : forall A B (R : A -> B -> Prop) l1 l2,
  Forall2 R l1 l2 -> forall i a, nth_error l1 i = Some a ->
  exists b, nth_error l2 i = Some b /\ R a b.
Proof.
  intros A B R l1 l2 H. induction H as [|a b l1 l2 Hab HF IH]; intros [|i] x Hx; simpl in *;
    try discriminate.
  - injection Hx as <-. exists b. auto.
  - apply IH. exact Hx.
Qed.

Lemma Forall2_nth_r : forall A B (R : A -> B -> Prop) l1 l2,
  Forall2 R l1 l2 -> forall i b, nth_error l2 i = Some b ->
  exists a, nth_error l1 i = Some a /\ R a b.
Proof.
  intros A B R l1 l2 H. induction H as [|a b l1 l2 Hab HF IH]; intros [|i] x Hx; simpl in *;
    try discriminate.
  - injection Hx as <-. exists a. auto.
  - apply IH. exact Hx.
Qed.

Lemma Forall2_intro_nth : forall A B (R : A -> B -> Prop) l1 l2,
  List.length l1 = List.length l2 ->
  (forall i a b, nth_error l1 i = Some a -> nth_error l2 i = Some b -> R a b) ->
  Forall2 R l1 l2.
Proof.
  intros A B R. induction l1 as [|a l1 IH]; intros [|b l2] Hlen H; simpl in Hlen; try discriminate.
  - constructor.
  - constructor; [apply (H 0); reflexivity|]. apply IH; [congruence|].
    intros i x y Hx Hy. apply (H (S i)); assumption.
Qed.

Lemma valid_update : forall g c i d l,
  valid g c -> nth_error (g_dims g) i = Some d -> l <= List.length (d_toks d) ->
  valid g (update c i l).
Proof.
  intros g c i d l Hv Hd Hl. apply Forall2_intro_nth.
  - rewrite update_length. symmetry. apply valid_length. exact Hv.
  - intros j a b Ha Hb.
    destruct (Nat.eq_dec i j) as [->|Hne].
    + rewrite Hd in Ha. injection Ha as <-.
      rewrite nth_error_update_same in Hb.
      * injection Hb as <-. exact Hl.
      * rewrite (valid_length _ _ Hv). apply nth_error_Some. congruence.
    + rewrite nth_error_update_other in Hb by assumption.
      destruct (Forall2_nth _ _ _ _ _ Hv _ _ Ha) as (b' & Hb' & HR). congruence.
Qed.

Lemma nth_error_ext : forall A (l1 l2 : list A),
  (forall i, nth_error l1 i = nth_error l2 i) -> l1 = l2.
Proof.
  intros A. induction l1 as [|a l1 IH]; intros [|b l2] H; auto.
  - specialize (H 0). discriminate.
  - specialize (H 0). discriminate.
  - f_equal; [specialize (H 0); simpl in H; congruence|].
    apply IH. intros i. apply (H (S i)).
Qed.

Lemma update_same_val : forall A (l : list A) i v, nth_error l i = Some v -> update l i v = l.
Proof.
  intros A l i v H. apply nth_error_ext. intros j.
  destruct (Nat.eq_dec i j) as [->|Hne].
  - rewrite nth_error_update_same; [auto|]. apply nth_error_Some. congruence.
  - apply nth_error_update_other. assumption.
Qed.

(** ** Changed dimensions *)

Lemma changed_from_refl : forall a i, changed_from i a a = [].
Proof. induction a as [|x a IH]; intros i; simpl; [reflexivity|]. rewrite Nat.eqb_refl. apply IH. Qed.

Lemma changed_from_update : forall a n i k l,
  nth_error a i = Some k -> l <> k -> changed_from n a (update a i l) = [n + i].
Proof.
  induction a as [|x a IH]; intros n [|i] k l H Hne; simpl in *; try discriminate.
  - injection H as ->. destruct (Nat.eqb_spec k l); [congruence|].
    rewrite changed_from_refl. f_equal. lia.
  - rewrite Nat.eqb_refl. rewrite (IH (S n) i k l H Hne). f_equal. lia.
Qed.

Lemma changed_update : forall a i k l,
  nth_error a i = Some k -> l <> k -> changed a (update a i l) = [i].
Proof. intros. unfold changed. rewrite (changed_from_update a 0 i k l); auto. Qed.

Lemma changed_from_update2 : forall a n i j k l k' m,
  j < i -> nth_error a i = Some k -> l <> k -> nth_error a j = Some k' -> m <> k' ->
  changed_from n a (update (update a i l) j m) = [n + j; n + i].
Proof.
  induction a as [|x a IH]; intros n i j k l k' m Hji Hi Hl Hj Hm.
  - destruct i; discriminate.
  - destruct i as [|i]; [lia|]. destruct j as [|j]; simpl in *.
    + injection Hj as ->. destruct (Nat.eqb_spec k' m); [congruence|].
      rewrite (changed_from_update a (S n) i k l Hi Hl). f_equal; [lia|f_equal; lia].
    + rewrite Nat.eqb_refl.
      rewrite (IH (S n) i j k l k' m); [|lia|assumption..]. f_equal; [lia|f_equal; lia].
Qed.

Lemma changed_update2 : forall a i j k l k' m,
  j < i -> nth_error a i = Some k -> l <> k -> nth_error a j = Some k' -> m <> k' ->
  changed a (update (update a i l) j m) = [j; i].
Proof. intros. unfold changed. rewrite (changed_from_update2 a 0 i j k l k' m); auto. Qed.

Lemma is_ending_spec : forall c, is_ending c = true <-> forall i k, nth_error c i = Some k -> k = 0.
Proof.
  intros c. unfold is_ending. rewrite forallb_forall. split.
  - intros H i k Hk. apply nth_error_In in Hk. apply H in Hk. apply Nat.eqb_eq. exact Hk.
  - intros H x Hx. apply In_nth_error in Hx. destruct Hx as [i Hi].
    apply Nat.eqb_eq. eapply H. exact Hi.
Qed.

Lemma not_ending_exists : forall c, is_ending c = false ->
  exists i k, nth_error c i = Some k /\ k <> 0.
Proof.
  induction c as [|x c IH]; simpl; [discriminate|].
  destruct (Nat.eqb_spec x 0) as [->|Hx]; simpl.
  - intros H. destruct (IH H) as (i & k & Hi & Hk). exists (S i), k. auto.
  - intros _. exists 0, x. auto.
Qed.
