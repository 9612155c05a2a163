(** Adding arcs at the ends of a network. *)
From Coq Require Import List ZArith Arith Bool Lia.
From Verif Require Import Base Net_Model Net_Spec.
Import ListNotations.

Lemma mem_In : forall x l, mem x l = true <-> In x l.
Proof.
  intros x l. unfold mem. rewrite existsb_exists. split.
  - intros (y & H & E). apply Nat.eqb_eq in E. now subst.
  - intros H. exists x. split; [exact H|apply Nat.eqb_refl].
Qed.
Lemma mem_false : forall x l, mem x l = false <-> ~ In x l.
Proof. intros x l. rewrite <- mem_In. destruct (mem x l); split; congruence. Qed.

Lemma fupd_same : forall A (f : nat -> A) k v, fupd f k v k = v.
Proof. intros. unfold fupd. now rewrite Nat.eqb_refl. Qed.
Lemma fupd_other : forall A (f : nat -> A) k v i, i <> k -> fupd f k v i = f i.
Proof. intros. unfold fupd. destruct (Nat.eqb_spec i k); [contradiction|reflexivity]. Qed.
Lemma fupds_in : forall A (f : nat -> A) l v i, In i l -> fupds f l v i = v.
Proof. intros. unfold fupds. apply mem_In in H. now rewrite H. Qed.
Lemma fupds_out : forall A (f : nat -> A) l v i, ~ In i l -> fupds f l v i = f i.
Proof. intros. unfold fupds. apply mem_false in H. now rewrite H. Qed.

Lemma add_arcs_app : forall xs l, NoDup (l ++ xs) -> add_arcs l xs = l ++ xs.
Proof.
  induction xs as [|x xs IH]; intros l H; [symmetry; apply app_nil_r|]. cbn [add_arcs fold_left].
  unfold add_arc at 2. assert (E : mem x l = false).
  { apply mem_false. intros Hx. apply NoDup_remove_2 in H. apply H. apply in_or_app. now left. }
  rewrite E. change (fold_left add_arc xs (l ++ [x])) with (add_arcs (l ++ [x]) xs).
  rewrite IH; rewrite <- app_assoc; [reflexivity|exact H].
Qed.
Lemma add_arcs_nil : forall xs, NoDup xs -> add_arcs [] xs = xs.
Proof. intros xs H. now apply add_arcs_app. Qed.

Section Net.
Context {D : Type}.
Implicit Types N : net D.

Lemma npath_app : forall N u xs v ys w, npath N u xs v -> npath N v ys w -> npath N u (xs ++ ys) w.
Proof. intros N u xs v ys w H. induction H; intros H2; [exact H2|]. cbn. econstructor; eauto. Qed.
Lemma npath_split : forall N xs ys u w, npath N u (xs ++ ys) w -> exists v, npath N u xs v /\ npath N v ys w.
Proof.
  intros N. induction xs as [|x xs IH]; intros ys u w H; [exists u; split; [constructor|exact H]|].
  inversion H; subst. destruct (IH _ _ _ H5) as (v & H1 & H2). exists v. split; [econstructor; eauto|exact H2].
Qed.
Lemma npath_one : forall N u x v, npath N u [x] v <-> In x (n_out N u) /\ v = n_to N x.
Proof.
  intros N u x v. split.
  - intros H. inversion H as [|? ? ? ? H1 H2]; subst. inversion H2; subst. auto.
  - intros [H ->]. econstructor; [exact H|constructor].
Qed.
Lemma npath_nil : forall N u v, npath N u [] v -> v = u.
Proof. intros N u v H. inversion H. reflexivity. Qed.

Lemma npath_cons_inv : forall N u x xs v, npath N u (x :: xs) v -> In x (n_out N u) /\ npath N (n_to N x) xs v.
Proof. intros N u x xs v H. inversion H; auto. Qed.

(** No arc enters the start. *)
Lemma no_entry : forall N x u, wf_net N -> In x (n_out N u) -> n_to N x <> n_start N.
Proof.
  intros N x u W H E. destruct (wf_out N W x u H) as (_ & _ & _ & _ & Hi). rewrite E, (proj2 (wf_start N W)) in Hi. destruct Hi.
Qed.
Lemma no_loop : forall N x u, wf_net N -> In x (n_out N u) -> n_to N x <> u.
Proof. intros N x u W H E. destruct (wf_rank N W) as (r & Hr). specialize (Hr x u H). rewrite E in Hr. lia. Qed.
Lemma npath_bound : forall N u xs v, wf_net N -> npath N u xs v -> u < n_nodes N -> v < n_nodes N.
Proof.
  intros N u xs v W H. induction H; intros Hu; [exact Hu|]. apply IHnpath. apply (wf_out N W x u H).
Qed.
Lemma npath_arcs : forall N u xs v, wf_net N -> npath N u xs v -> forall x, In x xs -> x < n_arcs N.
Proof.
  intros N u xs v W H. induction H; intros y Hy; [destruct Hy|]. destruct Hy as [<-|Hy]; [apply (wf_out N W x u H)|auto].
Qed.
Lemma npath_from_stop : forall N t xs v, wf_net N -> n_stop N = Some t -> npath N t xs v -> xs = [] /\ v = t.
Proof.
  intros N t xs v W E H. pose proof (wf_stop N W) as Hs. rewrite E in Hs. destruct Hs as (_ & Ho & _).
  inversion H; subst; [auto|]. rewrite Ho in H0. destruct H0.
Qed.
Lemma npath_rank : forall N (r : nat -> nat) u xs v, (forall x w, In x (n_out N w) -> r w < r (n_to N x)) ->
  npath N u xs v -> r u <= r v /\ (xs <> [] -> r u < r v).
Proof.
  intros N r u xs v Hr H. induction H; [split; [lia|congruence]|]. specialize (Hr x u H). destruct IHnpath as [H1 _].
  split; intros; lia.
Qed.

Lemma data_old : forall N d u ys, (forall x, In x ys -> x < n_arcs N) ->
  map (n_data (insert_after N u d)) ys = map (n_data N) ys.
Proof.
  intros N d u ys H. apply map_ext_in. intros x Hx. cbn. apply fupd_other. specialize (H x Hx). lia.
Qed.

Lemma wf_init : wf_net (@net_init D).
Proof.
  constructor; cbn; try (intros x u []); try (intros; constructor).
  all: auto. exists (fun _ => 0). intros x u [].
Qed.

(** ** An arc at the head *)
Section Head.
Variable N : net D.
Variable d : option D.
Hypothesis W : wf_net N.
Let N' := add_head N d.
Let s := n_start N.
Let v := n_nodes N.
Let x0 := n_arcs N.

Lemma head_start_fresh : s <> v.
Proof. unfold s, v. pose proof (proj1 (wf_start N W)). lia. Qed.
Lemma head_out_s : n_out N' s = [x0].
Proof. unfold N', add_head, insert_after. cbn. apply fupd_same. Qed.
Lemma head_out_v : n_out N' v = n_out N s.
Proof.
  unfold N', add_head, insert_after. cbn. fold s v. rewrite fupd_other by (intro E; apply head_start_fresh; auto).
  rewrite fupd_same. apply add_arcs_nil. apply (wf_nd_out N W).
Qed.
Lemma head_out_other : forall u, u <> s -> u <> v -> n_out N' u = n_out N u.
Proof.
  intros u H1 H2. unfold N', add_head, insert_after. cbn. fold s v. rewrite !fupd_other by assumption. reflexivity.
Qed.
Lemma head_to_new : n_to N' x0 = v.
Proof. unfold N', add_head, insert_after. cbn. apply fupd_same. Qed.
Lemma head_to_old : forall x, x < x0 -> n_to N' x = n_to N x.
Proof. intros x H. unfold N', add_head, insert_after. cbn. apply fupd_other. unfold x0 in H. lia. Qed.
Lemma out_v_empty : n_out N v = [].
Proof.
  destruct (n_out N v) as [|x l] eqn:E; [reflexivity|]. destruct (wf_out N W x v) as (_ & _ & H & _); [rewrite E; now left|].
  unfold v in H. lia.
Qed.
Lemma in_v_empty : n_in N v = [].
Proof.
  destruct (n_in N v) as [|x l] eqn:E; [reflexivity|]. destruct (wf_in N W x v) as (H & H2); [rewrite E; now left|].
  apply (wf_out N W) in H2. destruct H2 as (_ & _ & _ & H3 & _). unfold v in *. lia.
Qed.

Lemma head_path_other : forall u xs w, npath N u xs w -> u <> s -> u < v -> npath N' u xs w.
Proof.
  intros u xs w H. induction H as [|u x xs w Hx Hp IH]; intros Hu Hv; [constructor|].
  destruct (wf_out N W x u Hx) as (_ & H1 & _ & H2 & _).
  econstructor; [rewrite head_out_other by lia; exact Hx|]. rewrite head_to_old by (unfold x0; exact H1).
  apply IH; [apply (no_entry N x u W Hx)|exact H2].
Qed.
Lemma head_path_other_inv : forall u xs w, npath N' u xs w -> u <> s -> u < v -> npath N u xs w.
Proof.
  intros u xs w H. induction H as [|u x xs w Hx Hp IH]; intros Hu Hv; [constructor|].
  rewrite head_out_other in Hx by lia. destruct (wf_out N W x u Hx) as (_ & H1 & _ & H2 & _).
  rewrite head_to_old in IH by (unfold x0; exact H1).
  econstructor; [exact Hx|]. apply IH; [apply (no_entry N x u W Hx)|exact H2].
Qed.
(** Paths from the new node are the old paths from the start. *)
Lemma head_path_v : forall xs w, xs <> [] -> (npath N' v xs w <-> npath N s xs w).
Proof.
  intros xs w Hne. destruct xs as [|x xs]; [congruence|]. split; intros H; inversion H as [|? ? ? ? Hx Hp]; subst.
  - rewrite head_out_v in Hx. destruct (wf_out N W x s Hx) as (_ & H1 & _ & H2 & _).
    rewrite head_to_old in Hp by (unfold x0; exact H1). econstructor; [exact Hx|].
    apply head_path_other_inv; [exact Hp|apply (no_entry N x s W Hx)|exact H2].
  - destruct (wf_out N W x s Hx) as (_ & H1 & _ & H2 & _). econstructor; [rewrite head_out_v; exact Hx|].
    rewrite head_to_old by (unfold x0; exact H1). apply head_path_other; [exact Hp|apply (no_entry N x s W Hx)|exact H2].
Qed.
Lemma head_stop : n_stop N' = match n_stop N with None => Some v | Some t => Some t end.
Proof. unfold N', add_head, insert_after. cbn. destruct (n_stop N); reflexivity. Qed.

Lemma head_paths : forall t t' ys, n_stop N' = Some t' ->
  n_stop N = Some t \/ (n_stop N = None /\ t = s) ->
  (npath N' (n_start N') ys t' <-> exists xs, ys = x0 :: xs /\ npath N s xs t).
Proof.
  intros t t' ys Ht' Ht. change (n_start N') with s. rewrite head_stop in Ht'. split.
  - intros H. destruct ys as [|x ys].
    + exfalso. apply npath_nil in H. destruct Ht as [Ht|[Ht E]]; rewrite Ht in Ht'; injection Ht' as <-.
      * pose proof (wf_stop N W) as Hs. rewrite Ht in Hs. destruct Hs as (_ & _ & Hs & _). apply Hs. exact H.
      * apply head_start_fresh. auto.
    + inversion H as [|? ? ? ? Hx Hp]; subst. rewrite head_out_s in Hx. destruct Hx as [<-|[]]. exists ys. split; [reflexivity|].
      rewrite head_to_new in Hp. destruct Ht as [Ht|[Ht E]]; rewrite Ht in Ht'; injection Ht' as <-.
      * destruct ys as [|y ys]; [|apply head_path_v; [discriminate|exact Hp]].
        apply npath_nil in Hp. pose proof (wf_stop N W) as Hs. rewrite Ht in Hs. destruct Hs as (Hs & _). unfold v in Hp. lia.
      * destruct ys as [|y ys]; [subst t; constructor|]. exfalso. inversion Hp as [|? ? ? ? Hy _]; subst.
        rewrite head_out_v in Hy. pose proof (wf_stop N W) as Hs. rewrite Ht in Hs. rewrite Hs in Hy. destruct Hy.
  - intros (xs & -> & H). econstructor; [rewrite head_out_s; now left|]. rewrite head_to_new.
    destruct Ht as [Ht|[Ht E]]; rewrite Ht in Ht'; injection Ht' as <-.
    + apply head_path_v; [|exact H]. intros ->. apply npath_nil in H. pose proof (wf_stop N W) as Hs. rewrite Ht in Hs.
      destruct Hs as (_ & _ & Hs & _). contradiction.
    + subst t. destruct xs as [|y ys]; [constructor|]. inversion H as [|? ? ? ? Hy _]; subst.
      pose proof (wf_stop N W) as Hs. rewrite Ht in Hs. rewrite Hs in Hy. destruct Hy.
Qed.

Lemma head_in_new : n_in N' v = [x0].
Proof. unfold N', add_head, insert_after. cbn. apply fupd_same. Qed.
Lemma head_in_other : forall w, w <> v -> n_in N' w = n_in N w.
Proof. intros w H. unfold N', add_head, insert_after. cbn. now apply fupd_other. Qed.
Lemma head_from_new : n_from N' x0 = s.
Proof.
  unfold N', add_head, insert_after. cbn. fold s x0. rewrite fupds_out; [apply fupd_same|].
  intros H. apply (wf_out N W) in H. unfold x0 in H. lia.
Qed.
Lemma head_from_moved : forall x, In x (n_out N s) -> n_from N' x = v.
Proof. intros x H. unfold N', add_head, insert_after. cbn. now apply fupds_in. Qed.
Lemma head_from_old : forall x, ~ In x (n_out N s) -> x <> x0 -> n_from N' x = n_from N x.
Proof.
  intros x H Hx. unfold N', add_head, insert_after. cbn. fold s x0. rewrite fupds_out by exact H. now apply fupd_other.
Qed.

Lemma head_reach_v : npath N' s [x0] v.
Proof. apply npath_one. rewrite head_out_s, head_to_new. split; [now left|reflexivity]. Qed.

Lemma head_wf : wf_net N'.
Proof.
  pose proof (proj1 (wf_start N W)) as Hs0. pose proof head_start_fresh as Hsv.
  assert (Hout : forall x u, In x (n_out N' u) ->
     (x = x0 /\ u = s) \/ (u = v /\ In x (n_out N s)) \/ (u <> s /\ u <> v /\ In x (n_out N u))).
  { intros x u H. destruct (Nat.eq_dec u s) as [->|H1]; [rewrite head_out_s in H; destruct H as [<-|[]]; auto|].
    destruct (Nat.eq_dec u v) as [->|H2]; [rewrite head_out_v in H; auto|]. rewrite head_out_other in H by assumption. auto 10. }
  assert (Hnn : n_nodes N' = S v) by reflexivity. assert (Hna : n_arcs N' = S x0) by reflexivity.
  constructor.
  - intros x u H. rewrite Hnn, Hna. destruct (Hout x u H) as [[-> ->]|[[-> Hx]|(H1 & H2 & Hx)]].
    + rewrite head_from_new, head_to_new, head_in_new. fold s in Hs0. unfold v in *. repeat split; try lia. now left.
    + destruct (wf_out N W x s Hx) as (E1 & E2 & E3 & E4 & E5). fold x0 v in E2, E3, E4. rewrite head_from_moved by exact Hx.
      rewrite head_to_old by exact E2. rewrite head_in_other by lia. repeat split; try lia. exact E5.
    + destruct (wf_out N W x u Hx) as (E1 & E2 & E3 & E4 & E5). fold x0 v in E2, E3, E4.
      rewrite head_from_old; [|intros H3; destruct (wf_out N W x s H3) as (E6 & _); congruence|lia].
      rewrite head_to_old by exact E2. rewrite head_in_other by lia. repeat split; try lia; assumption.
  - intros x w H. destruct (Nat.eq_dec w v) as [->|Hw].
    + rewrite head_in_new in H. destruct H as [<-|[]]. rewrite head_to_new, head_from_new, head_out_s. split; [reflexivity|now left].
    + rewrite head_in_other in H by exact Hw. destruct (wf_in N W x w H) as (E1 & E2).
      destruct (wf_out N W x _ E2) as (_ & E3 & E4 & _). fold x0 v in E3, E4. rewrite head_to_old by exact E3. split; [exact E1|].
      destruct (Nat.eq_dec (n_from N x) s) as [Es|Es].
      * rewrite Es in E2. rewrite head_from_moved by exact E2. rewrite head_out_v. exact E2.
      * rewrite head_from_old; [|intros H3; destruct (wf_out N W x s H3) as (E6 & _); congruence|lia].
        rewrite head_out_other by lia. exact E2.
  - intros u. destruct (Nat.eq_dec u s) as [->|H1]; [rewrite head_out_s; repeat constructor; auto|].
    destruct (Nat.eq_dec u v) as [->|H2]; [rewrite head_out_v; apply (wf_nd_out N W)|].
    rewrite head_out_other by assumption. apply (wf_nd_out N W).
  - intros u. destruct (Nat.eq_dec u v) as [->|H2]; [rewrite head_in_new; repeat constructor; auto|].
    rewrite head_in_other by assumption. apply (wf_nd_in N W).
  - destruct (wf_rank N W) as (r & Hr). exists (fun u => if u =? s then 0 else if u =? v then S (r s) else S (r u)).
    assert (G : forall x u, In x (n_out N u) ->
      (if n_to N x =? s then 0 else if n_to N x =? v then S (r s) else S (r (n_to N x))) = S (r (n_to N x))).
    { intros x u Hx. destruct (Nat.eqb_spec (n_to N x) s) as [E|E]; [destruct (no_entry N x u W Hx E)|].
      destruct (Nat.eqb_spec (n_to N x) v) as [E2|E2]; [|reflexivity].
      destruct (wf_out N W x u Hx) as (_ & _ & _ & E4 & _). unfold v in E2. lia. }
    intros x u H. destruct (Hout x u H) as [[-> ->]|[[-> Hx]|(H1 & H2 & Hx)]].
    + rewrite head_to_new, Nat.eqb_refl. destruct (Nat.eqb_spec v s); [congruence|]. rewrite Nat.eqb_refl. lia.
    + rewrite head_to_old by (apply (wf_out N W x s Hx)). rewrite (G x s Hx). destruct (Nat.eqb_spec v s); [lia|].
      rewrite Nat.eqb_refl. specialize (Hr x s Hx). lia.
    + rewrite head_to_old by (apply (wf_out N W x u Hx)). rewrite (G x u Hx). destruct (Nat.eqb_spec u s); [lia|].
      destruct (Nat.eqb_spec u v); [lia|]. specialize (Hr x u Hx). lia.
  - change (n_start N') with s. split; [unfold v in *; fold s in Hs0; lia|]. rewrite head_in_other by exact Hsv.
    apply (wf_start N W).
  - rewrite head_stop. pose proof (wf_stop N W) as Ht. destruct (n_stop N) as [t|] eqn:Et.
    + destruct Ht as (E1 & E2 & E3 & (xs & Hp)). fold v in E1. change (n_start N') with s. split; [lia|]. split; [rewrite head_out_other by (fold s in E3; lia); exact E2|].
      split; [exact E3|]. exists (x0 :: xs). apply (head_paths t t); [rewrite head_stop, Et; reflexivity|auto|]. eauto.
    + split; [lia|]. split; [rewrite head_out_v; apply Ht|]. split; [change (n_start N') with s; congruence|].
      exists [x0]. exact head_reach_v.
  - change (n_start N') with s. intros x u H. destruct (Hout x u H) as [[-> ->]|[[-> Hx]|(H1 & H2 & Hx)]].
    + exists []. constructor.
    + exists [x0]. exact head_reach_v.
    + destruct (wf_reach N W x u Hx) as (xs & Hp). exists ([x0] ++ xs). apply (npath_app N' s [x0] v); [exact head_reach_v|].
      apply head_path_v; [|exact Hp]. intros ->. apply npath_nil in Hp. contradiction.
  - assert (G : forall x u, In x (n_out N u) -> exists t xs, n_stop N' = Some t /\ npath N' (n_to N' x) xs t).
    { intros x u Hx. destruct (wf_coreach N W x u Hx) as (t & xs & Et & Hp).
      destruct (wf_out N W x u Hx) as (_ & E3 & _ & E4 & _). exists t, xs. rewrite head_stop, Et. split; [reflexivity|].
      rewrite head_to_old by exact E3. apply head_path_other; [exact Hp|apply (no_entry N x u W Hx)|exact E4]. }
    intros x u H. destruct (Hout x u H) as [[-> ->]|[[-> Hx]|(H1 & H2 & Hx)]]; [|eapply G; eauto|eapply G; eauto].
    rewrite head_to_new, head_stop. pose proof (wf_stop N W) as Ht. destruct (n_stop N) as [t|] eqn:Et.
    + destruct Ht as (_ & _ & E3 & (xs & Hp)). exists t, xs. split; [reflexivity|]. apply head_path_v; [|exact Hp].
      intros ->. apply npath_nil in Hp. contradiction.
    + exists v, []. split; [reflexivity|constructor].
Qed.
End Head.

(** ** An arc at the tail *)
Section Tail.
Variable N : net D.
Variable d : option D.
Variable t : nat.
Hypothesis W : wf_net N.
Hypothesis Ht : n_stop N = Some t.
Let N' := insert_before N t d.
Let s := n_start N.
Let v := n_nodes N.
Let x0 := n_arcs N.

Lemma tail_stop_facts : t < v /\ n_out N t = [] /\ t <> s /\ exists xs, npath N s xs t.
Proof. pose proof (wf_stop N W) as H. rewrite Ht in H. exact H. Qed.
Lemma tail_out_v : n_out N' v = [x0].
Proof. unfold N', insert_before. cbn. apply fupd_same. Qed.
Lemma tail_out_other : forall u, u <> v -> n_out N' u = n_out N u.
Proof. intros u H. unfold N', insert_before. cbn. now apply fupd_other. Qed.
Lemma tail_to_new : n_to N' x0 = t.
Proof.
  unfold N', insert_before. cbn. fold x0. rewrite fupds_out; [apply fupd_same|].
  intros H. apply (wf_in N W) in H. destruct H as [_ H]. apply (wf_out N W) in H. unfold x0 in H. lia.
Qed.
Lemma tail_to_old : forall x u, In x (n_out N u) -> n_to N' x = if n_to N x =? t then v else n_to N x.
Proof.
  intros x u H. destruct (wf_out N W x u H) as (_ & E1 & _ & _ & E2). unfold N', insert_before. cbn. fold v x0.
  destruct (Nat.eqb_spec (n_to N x) t) as [E|E].
  - apply fupds_in. rewrite <- E. exact E2.
  - rewrite fupds_out; [apply fupd_other; unfold x0; lia|]. intros H3. apply (wf_in N W) in H3. tauto.
Qed.
Lemma tail_from_new : n_from N' x0 = v.
Proof. unfold N', insert_before. cbn. apply fupd_same. Qed.
Lemma tail_from_old : forall x, x <> x0 -> n_from N' x = n_from N x.
Proof. intros x H. unfold N', insert_before. cbn. now apply fupd_other. Qed.
Lemma tail_in_t : n_in N' t = [x0].
Proof. unfold N', insert_before. cbn. apply fupd_same. Qed.
Lemma tail_in_v : n_in N' v = n_in N t.
Proof.
  unfold N', insert_before. cbn. fold v. destruct tail_stop_facts as (H & _). rewrite fupd_other by lia. rewrite fupd_same.
  apply add_arcs_nil. apply (wf_nd_in N W).
Qed.
Lemma tail_in_other : forall u, u <> t -> u <> v -> n_in N' u = n_in N u.
Proof. intros u H1 H2. unfold N', insert_before. cbn. fold v. rewrite !fupd_other by assumption. reflexivity. Qed.

Lemma tail_path : forall u xs w, npath N u xs w -> u <> t -> u < v -> npath N' u xs (if w =? t then v else w).
Proof.
  destruct tail_stop_facts as (Htv & Hot & _).
  intros u xs w H. induction H as [|u x xs w Hx Hp IH]; intros Hu Hv.
  - destruct (Nat.eqb_spec u t); [contradiction|constructor].
  - econstructor; [rewrite tail_out_other by lia; exact Hx|]. rewrite (tail_to_old x u Hx).
    destruct (Nat.eqb_spec (n_to N x) t) as [E|E].
    + rewrite E in Hp. destruct (npath_from_stop N t xs w W Ht Hp) as [-> ->]. rewrite Nat.eqb_refl. constructor.
    + apply IH; [exact E|]. apply (wf_out N W x u Hx).
Qed.
Lemma tail_path_inv : forall u xs w', npath N' u xs w' -> u <> t -> u < v ->
  (exists w, npath N u xs w /\ w' = if w =? t then v else w) \/
  (exists ys, xs = ys ++ [x0] /\ w' = t /\ npath N u ys t).
Proof.
  destruct tail_stop_facts as (Htv & Hot & _).
  intros u xs w' H. induction H as [|u x xs w Hx Hp IH]; intros Hu Hv.
  - left. exists u. split; [constructor|]. destruct (Nat.eqb_spec u t); [contradiction|reflexivity].
  - rewrite tail_out_other in Hx by lia. rewrite (tail_to_old x u Hx) in *.
    destruct (Nat.eqb_spec (n_to N x) t) as [E|E].
    + clear IH. destruct xs as [|y ys].
      * apply npath_nil in Hp. left. exists t. split; [apply npath_one; auto|]. now rewrite Nat.eqb_refl.
      * apply npath_cons_inv in Hp. destruct Hp as [Hy Hq].
        rewrite tail_out_v in Hy. destruct Hy as [<-|[]]. rewrite tail_to_new in Hq. right. exists [x].
        destruct ys as [|z zs]; [|apply npath_cons_inv in Hq; destruct Hq as [Hz _]; rewrite tail_out_other in Hz by lia; rewrite Hot in Hz; destruct Hz].
        apply npath_nil in Hq. split; [reflexivity|]. split; [exact Hq|]. apply npath_one. auto.
    + destruct IH as [(w0 & H1 & H2)|(ys & H1 & H2 & H3)]; [exact E|apply (wf_out N W x u Hx)| |].
      * left. exists w0. split; [econstructor; eauto|exact H2].
      * right. exists (x :: ys). subst. split; [reflexivity|]. split; [reflexivity|]. econstructor; eauto.
Qed.
Lemma tail_paths : forall ys, npath N' (n_start N') ys t <-> exists xs, ys = xs ++ [x0] /\ npath N s xs t.
Proof.
  destruct tail_stop_facts as (Htv & Hot & Hts & _). pose proof (proj1 (wf_start N W)) as Hs0. change (n_start N') with s. fold s v in Hs0.
  intros ys. split.
  - intros H. destruct (tail_path_inv s ys t H) as [(w & H1 & H2)|(xs & H1 & _ & H3)]; [congruence|exact Hs0| |eauto].
    exfalso. destruct (Nat.eqb_spec w t) as [E|E]; [lia|congruence].
  - intros (xs & -> & H). apply (npath_app N' s xs v).
    + pose proof (tail_path s xs t H ltac:(congruence) Hs0) as G. rewrite Nat.eqb_refl in G. exact G.
    + apply npath_one. rewrite tail_out_v, tail_to_new. split; [now left|reflexivity].
Qed.

Lemma tail_wf : wf_net N'.
Proof.
  destruct tail_stop_facts as (Htv & Hot & Hts & Hp0). pose proof (proj1 (wf_start N W)) as Hs0. fold s v in Hs0.
  assert (Hout : forall x u, In x (n_out N' u) -> (x = x0 /\ u = v) \/ (u <> v /\ u <> t /\ u < v /\ In x (n_out N u))).
  { intros x u H. destruct (Nat.eq_dec u v) as [->|H2]; [rewrite tail_out_v in H; destruct H as [<-|[]]; auto|].
    rewrite tail_out_other in H by assumption. right. split; [exact H2|]. split; [intros ->; rewrite Hot in H; destruct H|].
    split; [apply (wf_out N W x u H)|exact H]. }
  assert (Hnn : n_nodes N' = S v) by reflexivity. assert (Hna : n_arcs N' = S x0) by reflexivity.
  constructor.
  - intros x u H. rewrite Hnn, Hna. destruct (Hout x u H) as [[-> ->]|(H1 & H2 & H3 & Hx)].
    + rewrite tail_from_new, tail_to_new, tail_in_t. repeat split; try lia. now left.
    + destruct (wf_out N W x u Hx) as (E1 & E2 & E3 & E4 & E5). fold x0 v in E2, E3, E4. rewrite tail_from_old by lia.
      rewrite (tail_to_old x u Hx). destruct (Nat.eqb_spec (n_to N x) t) as [E|E].
      * rewrite tail_in_v. repeat split; try lia; try assumption. rewrite <- E. exact E5.
      * rewrite tail_in_other by lia. repeat split; try lia; assumption.
  - intros x w H. destruct (Nat.eq_dec w t) as [->|Hw]; [|destruct (Nat.eq_dec w v) as [->|Hw2]].
    + rewrite tail_in_t in H. destruct H as [<-|[]]. rewrite tail_to_new, tail_from_new, tail_out_v. split; [reflexivity|now left].
    + rewrite tail_in_v in H. destruct (wf_in N W x t H) as (E1 & E2). rewrite (tail_to_old x _ E2), E1, Nat.eqb_refl.
      split; [reflexivity|]. destruct (wf_out N W x _ E2) as (_ & E3 & E4 & _). fold x0 v in E3, E4. rewrite tail_from_old by lia.
      rewrite tail_out_other by lia. exact E2.
    + rewrite tail_in_other in H by assumption. destruct (wf_in N W x w H) as (E1 & E2). rewrite (tail_to_old x _ E2), E1.
      destruct (Nat.eqb_spec w t); [contradiction|]. split; [reflexivity|].
      destruct (wf_out N W x _ E2) as (_ & E3 & E4 & _). fold x0 v in E3, E4. rewrite tail_from_old by lia.
      rewrite tail_out_other by lia. exact E2.
  - intros u. destruct (Nat.eq_dec u v) as [->|H2]; [rewrite tail_out_v; repeat constructor; auto|].
    rewrite tail_out_other by assumption. apply (wf_nd_out N W).
  - intros u. destruct (Nat.eq_dec u t) as [->|H1]; [rewrite tail_in_t; repeat constructor; auto|].
    destruct (Nat.eq_dec u v) as [->|H2]; [rewrite tail_in_v; apply (wf_nd_in N W)|].
    rewrite tail_in_other by assumption. apply (wf_nd_in N W).
  - destruct (wf_rank N W) as (r & Hr). exists (fun u => if u =? v then r t else if u =? t then S (r t) else r u).
    intros x u H. destruct (Hout x u H) as [[-> ->]|(H1 & H2 & H3 & Hx)].
    + rewrite tail_to_new, Nat.eqb_refl. destruct (Nat.eqb_spec t v); [lia|]. rewrite Nat.eqb_refl. lia.
    + rewrite (tail_to_old x u Hx). specialize (Hr x u Hx). destruct (Nat.eqb_spec u v); [lia|]. destruct (Nat.eqb_spec u t); [lia|].
      destruct (Nat.eqb_spec (n_to N x) t) as [E|E]; [rewrite Nat.eqb_refl, <- E; exact Hr|].
      destruct (Nat.eqb_spec (n_to N x) v) as [E2|E2]; [|destruct (Nat.eqb_spec (n_to N x) t); [contradiction|exact Hr]].
      destruct (wf_out N W x u Hx) as (_ & _ & _ & E4 & _). unfold v in E2. lia.
  - change (n_start N') with s. split; [lia|]. rewrite tail_in_other by (try lia; congruence). apply (wf_start N W).
  - change (n_stop N') with (n_stop N). rewrite Ht. split; [lia|]. split; [rewrite tail_out_other by lia; exact Hot|].
    split; [exact Hts|]. destruct Hp0 as (xs & Hp). exists (xs ++ [x0]). apply tail_paths. eauto.
  - change (n_start N') with s. intros x u H. destruct (Hout x u H) as [[-> ->]|(H1 & H2 & H3 & Hx)].
    + destruct Hp0 as (xs & Hp). exists xs. pose proof (tail_path s xs t Hp ltac:(congruence) Hs0) as G. rewrite Nat.eqb_refl in G. exact G.
    + destruct (wf_reach N W x u Hx) as (xs & Hp). exists xs. pose proof (tail_path s xs u Hp ltac:(congruence) Hs0) as G.
      destruct (Nat.eqb_spec u t); [contradiction|exact G].
  - intros x u H. exists t. change (n_stop N') with (n_stop N). destruct (Hout x u H) as [[-> ->]|(H1 & H2 & H3 & Hx)].
    + exists []. split; [exact Ht|]. rewrite tail_to_new. constructor.
    + assert (Hv : npath N' v [x0] t) by (apply npath_one; rewrite tail_out_v, tail_to_new; split; [now left|reflexivity]).
      destruct (wf_coreach N W x u Hx) as (t' & xs & Et & Hp). rewrite Ht in Et. injection Et as <-.
      rewrite (tail_to_old x u Hx). destruct (Nat.eqb_spec (n_to N x) t) as [E|E]; [exists [x0]; auto|].
      exists (xs ++ [x0]). split; [exact Ht|]. apply (npath_app N' _ xs v); [|exact Hv].
      pose proof (tail_path (n_to N x) xs t Hp E) as G. rewrite Nat.eqb_refl in G. apply G. apply (wf_out N W x u Hx).
Qed.
End Tail.

Lemma tail_data_old : forall N t d ys, (forall x, In x ys -> x < n_arcs N) ->
  map (n_data (insert_before N t d)) ys = map (n_data N) ys.
Proof. intros N t d ys H. apply map_ext_in. intros x Hx. cbn. apply fupd_other. specialize (H x Hx). lia. Qed.

(** ** Histories *)
(** A network with one path only, which spells [l]. *)
Definition linear (N : net D) (l : list D) : Prop :=
  wf_net N /\
  match n_stop N with
  | None => l = []
  | Some t => l <> [] /\ exists xs, npath N (n_start N) xs t /\ (forall ys, npath N (n_start N) ys t -> ys = xs) /\ map (n_data N) xs = map Some l
  end.

Lemma run_linear : forall N l o, linear N l -> linear (net_run1 N o) (list_run1 l o).
Proof.
  intros N l o [W H].
  assert (Hinit : forall d, n_stop N = None -> linear (add_head N (Some d)) [d]).
  { intros d E. split; [apply head_wf; exact W|].
    assert (Es : n_stop (add_head N (Some d)) = Some (n_nodes N)) by (rewrite head_stop, E; reflexivity).
    rewrite Es. split; [discriminate|]. exists [n_arcs N].
    pose proof (head_paths N (Some d) W (n_start N) (n_nodes N)) as HP.
    split; [|split].
    - apply HP; [exact Es|auto|]. exists []. split; [reflexivity|constructor].
    - intros ys Hy. apply HP in Hy; [|exact Es|auto]. destruct Hy as (xs & -> & Hp).
      destruct xs as [|x xs]; [reflexivity|]. inversion Hp as [|? ? ? ? Hx _]; subst.
      pose proof (wf_stop N W) as Hs. rewrite E in Hs. rewrite Hs in Hx. destruct Hx.
    - cbn. rewrite fupd_same. reflexivity. }
  destruct o as [d|d]; cbn [net_run1 list_run1].
  - destruct (n_stop N) as [t|] eqn:E; [|subst l; apply Hinit; reflexivity].
    split; [apply head_wf; exact W|].
    assert (Es : n_stop (add_head N (Some d)) = Some t) by (rewrite head_stop, E; reflexivity).
    rewrite Es. destruct H as (Hl & xs & H1 & H2 & H3). split; [discriminate|]. exists (n_arcs N :: xs). split; [|split].
    + apply (head_paths N (Some d) W t t); eauto.
    + intros ys Hy. apply (head_paths N (Some d) W t t) in Hy; [|exact Es|auto]. destruct Hy as (zs & -> & Hz).
      rewrite (H2 zs Hz). reflexivity.
    + cbn [map]. unfold add_head. rewrite data_old by (apply (npath_arcs N _ _ _ W H1)). rewrite H3.
      cbn. rewrite fupd_same. reflexivity.
  - unfold add_tail. destruct (n_stop N) as [t|] eqn:E; [|subst l; apply Hinit; reflexivity].
    split; [apply tail_wf; assumption|]. change (n_stop (insert_before N t (Some d))) with (n_stop N). rewrite E.
    destruct H as (Hl & xs & H1 & H2 & H3). split; [destruct l; discriminate|]. exists (xs ++ [n_arcs N]). split; [|split].
    + apply (tail_paths N (Some d) t W E). eauto.
    + intros ys Hy. apply (tail_paths N (Some d) t W E) in Hy. destruct Hy as (zs & -> & Hz). rewrite (H2 zs Hz). reflexivity.
    + rewrite map_app, tail_data_old by (apply (npath_arcs N _ _ _ W H1)). rewrite H3, map_app. cbn. rewrite fupd_same. reflexivity.
Qed.
Lemma runs_linear : forall os N l, linear N l -> linear (fold_left net_run1 os N) (fold_left list_run1 os l).
Proof. induction os as [|o os IH]; intros N l H; [exact H|]. cbn. apply IH. apply run_linear. exact H. Qed.
Lemma init_linear : linear (@net_init D) [].
Proof. split; [exact wf_init|reflexivity]. Qed.
End Net.
