(** Proofs for Wtn_Model: an arc before any node; rows of slots. *)
From Coq Require Import List ZArith Arith Bool Lia.
From Verif Require Import Base Net_Model Net_Spec Net_Proofs1 Net_Proofs2 Net_Proofs3 Wtn_Spec.
Import ListNotations.

Section Before.
Context {D : Type}.
Variable N : net D.
Variables (t : nat) (d : option D).
Hypothesis W : wf_net N.
Hypothesis Hin : exists y, In y (n_in N t).
Hypothesis Hco : exists s xs, n_stop N = Some s /\ npath N t xs s.
Local Notation N' := (insert_before N t d).
Local Notation v := (n_nodes N).
Local Notation x0 := (n_arcs N).

Lemma bf_t : t < v /\ t <> n_start N.
Proof.
  destruct Hin as (y & Hy). destruct (wf_in N W y t Hy) as [E H]. destruct (wf_out N W y _ H) as (_ & _ & _ & H4 & _). split; [congruence|].
  intros ->. rewrite (proj2 (wf_start N W)) in Hy. destruct Hy.
Qed.
Lemma bf_out_v : n_out N' v = [x0].
Proof. cbn. apply fupd_same. Qed.
Lemma bf_out_other u : u <> v -> n_out N' u = n_out N u.
Proof. intros H. cbn. now apply fupd_other. Qed.
Lemma bf_out_iff x u : In x (n_out N' u) <-> (x = x0 /\ u = v) \/ In x (n_out N u).
Proof.
  destruct (Nat.eq_dec u v) as [->|H].
  - rewrite bf_out_v. cbn. split; [intros [<-|[]]; auto|]. intros [[-> _]|H]; [auto|]. destruct (wf_out N W x v H) as (_ & _ & H3 & _). lia.
  - rewrite bf_out_other by exact H. tauto.
Qed.
Lemma bf_to_new : n_to N' x0 = t.
Proof.
  cbn. rewrite fupds_out; [apply fupd_same|].
  intros H. apply (wf_in N W) in H. destruct H as [_ H]. apply (wf_out N W) in H. lia.
Qed.
Lemma bf_to_old x u : In x (n_out N u) -> n_to N' x = if n_to N x =? t then v else n_to N x.
Proof.
  intros H. destruct (wf_out N W x u H) as (_ & E1 & _ & _ & E2). cbn. destruct (Nat.eqb_spec (n_to N x) t) as [E|E].
  - apply fupds_in. rewrite <- E. exact E2.
  - rewrite fupds_out; [apply fupd_other; lia|]. intros H3. apply (wf_in N W) in H3. tauto.
Qed.
Lemma bf_from_new : n_from N' x0 = v.
Proof. cbn. apply fupd_same. Qed.
Lemma bf_from_old x : x <> x0 -> n_from N' x = n_from N x.
Proof. intros H. cbn. now apply fupd_other. Qed.
Lemma bf_in_t : n_in N' t = [x0].
Proof. cbn. apply fupd_same. Qed.
Lemma bf_in_v : n_in N' v = n_in N t.
Proof. cbn. pose proof bf_t. rewrite fupd_other by lia. rewrite fupd_same. apply add_arcs_nil. apply (wf_nd_in N W). Qed.
Lemma bf_in_other u : u <> t -> u <> v -> n_in N' u = n_in N u.
Proof. intros H1 H2. cbn. rewrite !fupd_other by assumption. reflexivity. Qed.
Lemma bf_data x : x <> x0 -> n_data N' x = n_data N x.
Proof. intros H. cbn. now apply fupd_other. Qed.
Lemma bf_data_new : n_data N' x0 = d.
Proof. cbn. apply fupd_same. Qed.

Lemma bf_last : npath N' v [x0] t.
Proof. apply npath_one. rewrite bf_out_v, bf_to_new. split; [now left|reflexivity]. Qed.
Lemma bf_path u xs w : npath N u xs w -> exists ys, npath N' u ys w.
Proof.
  induction 1 as [u|u x xs w H P (ys & IH)]; [exists []; constructor|].
  assert (O : In x (n_out N' u)) by (apply bf_out_iff; now right). pose proof (bf_to_old x u H) as E. destruct (Nat.eqb_spec (n_to N x) t) as [Et|Nt].
  - exists (x :: [x0] ++ ys). constructor; [exact O|]. rewrite E. apply (npath_app N' v [x0] t); [exact bf_last|]. rewrite Et in IH. exact IH.
  - exists (x :: ys). constructor; [exact O|]. rewrite E. exact IH.
Qed.
Lemma bf_reach_v : exists ys, npath N' (n_start N) ys v.
Proof.
  destruct Hin as (y & Hy). destruct (wf_in N W y t Hy) as [E H]. destruct (wf_reach N W y _ H) as (xs & P). destruct (bf_path _ _ _ P) as (ys & Q).
  exists (ys ++ [y]). apply (npath_app N' _ ys (n_from N y)); [exact Q|]. apply npath_one. split; [apply bf_out_iff; now right|]. rewrite (bf_to_old y _ H), E, Nat.eqb_refl. reflexivity.
Qed.
Lemma before_wf : wf_net N'.
Proof.
  pose proof bf_t as [Tv Ts]. destruct (wf_start N W) as [S1 S2]. constructor.
  - intros x u H. change (n_nodes N') with (S v). change (n_arcs N') with (S x0). apply bf_out_iff in H. destruct H as [[-> ->]|H].
    + rewrite bf_from_new, bf_to_new, bf_in_t. repeat split; try lia. now left.
    + destruct (wf_out N W x u H) as (E1 & E2 & E3 & E4 & E5). rewrite bf_from_old by lia. rewrite (bf_to_old x u H). destruct (Nat.eqb_spec (n_to N x) t) as [E|E].
      * rewrite bf_in_v. repeat split; try lia. rewrite <- E. exact E5.
      * rewrite bf_in_other by lia. repeat split; try lia. exact E5.
  - intros x w H. destruct (Nat.eq_dec w t) as [->|Hw]; [|destruct (Nat.eq_dec w v) as [->|Hw2]].
    + rewrite bf_in_t in H. destruct H as [<-|[]]. rewrite bf_to_new, bf_from_new. split; [reflexivity|]. apply bf_out_iff. now left.
    + rewrite bf_in_v in H. destruct (wf_in N W x t H) as (E1 & E2). rewrite (bf_to_old x _ E2), E1, Nat.eqb_refl.
      split; [reflexivity|]. rewrite bf_from_old by (apply (wf_out N W) in E2; lia). apply bf_out_iff. now right.
    + rewrite bf_in_other in H by assumption. destruct (wf_in N W x w H) as (E1 & E2). rewrite (bf_to_old x _ E2), E1, (proj2 (Nat.eqb_neq _ _) Hw).
      split; [reflexivity|]. rewrite bf_from_old by (apply (wf_out N W) in E2; lia). apply bf_out_iff. now right.
  - intros u. destruct (Nat.eq_dec u v) as [->|H2]; [rewrite bf_out_v; repeat constructor; auto|]. rewrite bf_out_other by assumption. apply (wf_nd_out N W).
  - intros u. destruct (Nat.eq_dec u t) as [->|H1]; [rewrite bf_in_t; repeat constructor; auto|].
    destruct (Nat.eq_dec u v) as [->|H2]; [rewrite bf_in_v; apply (wf_nd_in N W)|]. rewrite bf_in_other by assumption. apply (wf_nd_in N W).
  - destruct (wf_rank N W) as (r & Hr). exists (fun u => if u =? v then 2 * r t - 1 else 2 * r u).
    assert (R1 : 0 < r t).
    { destruct Hin as (y & Hy). destruct (wf_in N W y t Hy) as [E H]. specialize (Hr y _ H). rewrite E in Hr. lia. }
    intros x u H. apply bf_out_iff in H. destruct H as [[-> ->]|H].
    + rewrite bf_to_new, Nat.eqb_refl, (proj2 (Nat.eqb_neq t v)) by lia. lia.
    + destruct (wf_out N W x u H) as (_ & _ & E3 & E4 & _). rewrite (proj2 (Nat.eqb_neq u v)) by lia. rewrite (bf_to_old x u H). specialize (Hr x u H).
      destruct (Nat.eqb_spec (n_to N x) t) as [E|E]; [rewrite Nat.eqb_refl, <- E; lia|]. rewrite (proj2 (Nat.eqb_neq _ v)) by lia. lia.
  - change (n_start N') with (n_start N). change (n_nodes N') with (S v). split; [lia|]. rewrite bf_in_other by (try lia; congruence). exact S2.
  - change (n_stop N') with (n_stop N). change (n_start N') with (n_start N). change (n_nodes N') with (S v). pose proof (wf_stop N W) as H. destruct Hco as (s & xs & Es & P). rewrite Es in H |- *.
    destruct H as (H1 & H2 & H3 & (ps & H4)). split; [lia|]. split; [rewrite bf_out_other by lia; exact H2|]. split; [exact H3|]. exact (bf_path _ _ _ H4).
  - change (n_start N') with (n_start N). intros x u H. apply bf_out_iff in H. destruct H as [[-> ->]|H]; [exact bf_reach_v|].
    destruct (wf_reach N W x u H) as (xs & P). exact (bf_path _ _ _ P).
  - change (n_stop N') with (n_stop N). destruct Hco as (s & xs & Es & P). destruct (bf_path _ _ _ P) as (ys & Q).
    intros x u H. exists s. apply bf_out_iff in H. destruct H as [[-> ->]|H].
    + exists ys. split; [exact Es|]. rewrite bf_to_new. exact Q.
    + rewrite (bf_to_old x u H). destruct (Nat.eqb_spec (n_to N x) t) as [E|E].
      * exists ([x0] ++ ys). split; [exact Es|]. apply (npath_app N' v [x0] t); [exact bf_last|exact Q].
      * destruct (wf_coreach N W x u H) as (s' & zs & E2 & P2). rewrite Es in E2. injection E2 as <-. destruct (bf_path _ _ _ P2) as (ws & Q2). eauto.
Qed.
End Before.

(** ** Rows *)
Section Row.
Context {D : Type}.
(** The slots between two nodes, with the arcs of each and the node where they end. *)
Inductive row (G : net D) : nat -> list (list nat * nat) -> nat -> Prop :=
| row_nil : forall u, row G u [] u
| row_cons : forall u s v r t, n_out G u = s -> s <> [] -> (forall x, In x s -> n_to G x = v) -> row G v r t -> row G u ((s, v) :: r) t.
Definition nodes (u : nat) (r : list (list nat * nat)) : list nat := u :: map snd r.

Lemma row_app G r1 : forall u r2 t, row G u (r1 ++ r2) t <-> exists m, row G u r1 m /\ row G m r2 t.
Proof.
  induction r1 as [|[s v] r1 IH]; intros u r2 t; cbn [app].
  - split; [intros H; exists u; split; [constructor|exact H]|]. intros (m & H1 & H2). inversion H1; subst. exact H2.
  - split.
    + intros H. inversion H; subst. match goal with K : row G v _ t |- _ => apply IH in K; destruct K as (m & K1 & K2) end.
      exists m. split; [constructor; auto|exact K2].
    + intros (m & H1 & H2). inversion H1; subst. constructor; auto. apply IH. eauto.
Qed.
Lemma row_end G r : forall u t, row G u r t -> nth_error (nodes u r) (length r) = Some t.
Proof.
  induction r as [|[s v] r IH]; intros u t H; inversion H; subst; [reflexivity|]. cbn [length]. match goal with K : row G v r t |- _ => exact (IH _ _ K) end.
Qed.
Lemma row_nth G : forall r u t i p s v, row G u r t -> nth_error (nodes u r) i = Some p -> nth_error r i = Some (s, v) ->
  n_out G p = s /\ s <> [] /\ (forall x, In x s -> n_to G x = v).
Proof.
  induction r as [|[s0 v0] r IH]; intros u t i p s v H Hp Hs; [destruct i; discriminate|]. inversion H; subst. destruct i as [|i].
  - injection Hp as <-. injection Hs as <- <-. auto.
  - cbn in Hp, Hs. eapply IH; eauto.
Qed.
Lemma row_ext G G' : forall r u t, row G u r t ->
  (forall p s v i, nth_error (nodes u r) i = Some p -> nth_error r i = Some (s, v) -> n_out G p = s -> n_out G' p = s /\ forall x, In x s -> n_to G x = v -> n_to G' x = v) -> row G' u r t.
Proof.
  induction r as [|[s v] r IH]; intros u t H E; inversion H; subst; constructor.
  - apply (E u _ v 0); reflexivity.
  - assumption.
  - intros x I. destruct (E u _ v 0 eq_refl eq_refl eq_refl) as [_ F]. auto.
  - apply IH; [assumption|]. intros p s v' i Hp Hs Ho. apply (E p s v' (S i)); assumption.
Qed.

Variable G : net D.
Hypothesis W : wf_net G.
Variables (r : list (list nat * nat)) (t : nat).
Hypothesis HR : row G (n_start G) r t.
Hypothesis HS : n_stop G = Some t.

Lemma row_rank rk : (forall x u, In x (n_out G u) -> rk u < rk (n_to G x)) -> forall r u t, row G u r t -> Forall (fun p => rk u < rk (snd p)) r.
Proof.
  intros Hr. induction r0 as [|[s v] r0 IH]; intros u t0 H; [constructor|]. inversion H; subst.
  assert (L : rk u < rk v).
  { destruct (n_out G u) as [|x l] eqn:E; [congruence|]. match goal with K : forall x, _ -> n_to G x = v |- _ => rewrite <- (K x (or_introl eq_refl)) end. apply Hr. rewrite E. now left. }
  constructor; [exact L|]. match goal with K : row G v r0 t0 |- _ => apply IH in K; revert K end. apply Forall_impl. intros; lia.
Qed.
Lemma row_nodup : forall r u t, row G u r t -> NoDup (nodes u r).
Proof.
  destruct (wf_rank G W) as (rk & Hr). induction r0 as [|[s v] r0 IH]; intros u t0 H; [repeat constructor; intros []|].
  pose proof (row_rank rk Hr _ _ _ H) as F. inversion H; subst. constructor.
  - intros I. apply in_map_iff in I. destruct I as (p & E & I). rewrite Forall_forall in F. specialize (F p I). rewrite E in F. lia.
  - match goal with K : row G v r0 t0 |- _ => apply IH in K; exact K end.
Qed.
Lemma stop_no_out : n_out G t = [].
Proof. pose proof (wf_stop G W) as H. rewrite HS in H. apply H. Qed.
Lemma nodes_len u : length (nodes u r) = S (length r).
Proof. cbn. now rewrite map_length. Qed.

Definition at_lev (i x : nat) : Prop := exists s v, nth_error r i = Some (s, v) /\ In x s.
Lemma lev_lt i x : at_lev i x -> i < length r.
Proof. intros (s & v & H & _). apply nth_error_Some. rewrite H. discriminate. Qed.
(** The node before a slot. *)
Lemma lev_from i x : at_lev i x -> nth_error (nodes (n_start G) r) i = Some (n_from G x) /\ In x (n_out G (n_from G x)).
Proof.
  intros L. pose proof (lev_lt i x L) as Li. destruct L as (s & v & H & I). destruct (nth_error (nodes (n_start G) r) i) as [p|] eqn:E.
  - destruct (row_nth G r _ _ i p s v HR E H) as (O & _). rewrite <- O in I. destruct (wf_out G W x p I) as [F _]. rewrite F. auto.
  - apply nth_error_None in E. rewrite nodes_len in E. lia.
Qed.
Lemma lev_to i x : at_lev i x -> nth_error (nodes (n_start G) r) (S i) = Some (n_to G x).
Proof.
  intros L. pose proof (lev_lt i x L) as Li. destruct L as (s & v & H & I). destruct (nth_error (nodes (n_start G) r) i) as [p|] eqn:E.
  - destruct (row_nth G r _ _ i p s v HR E H) as (_ & _ & T). rewrite (T x I). cbn. rewrite nth_error_map, H. reflexivity.
  - apply nth_error_None in E. rewrite nodes_len in E. lia.
Qed.
Lemma nodes_inj i j p : nth_error (nodes (n_start G) r) i = Some p -> nth_error (nodes (n_start G) r) j = Some p -> i = j.
Proof.
  intros A B. pose proof (row_nodup r _ _ HR) as ND. rewrite NoDup_nth_error in ND. apply ND; [apply nth_error_Some; congruence|congruence].
Qed.
Lemma lev_unique i j x : at_lev i x -> at_lev j x -> i = j.
Proof. intros A B. apply lev_from in A, B. eapply nodes_inj; [apply A|apply B]. Qed.
Lemma reach_node u : reachable G u -> In u (nodes (n_start G) r).
Proof.
  apply (reachable_ind G (fun u => In u (nodes (n_start G) r))); [left; reflexivity|]. intros p x I O. apply In_nth_error in I. destruct I as (i & E).
  assert (L : i < S (length r)) by (rewrite <- (nodes_len (n_start G)); apply nth_error_Some; congruence).
  destruct (nth_error r i) as [[s v]|] eqn:Ei.
  - destruct (row_nth G r _ _ i p s v HR E Ei) as (Es & _ & T). rewrite Es in O. rewrite (T x O). right. apply in_map_iff. exists (s, v). split; [reflexivity|]. eapply nth_error_In, Ei.
  - apply nth_error_None in Ei. assert (i = length r) by lia. subst i. pose proof (row_end G r _ _ HR) as Et.
    rewrite Et in E. injection E as <-. rewrite stop_no_out in O. destruct O.
Qed.
Lemma live_lev x u : In x (n_out G u) -> exists i, at_lev i x.
Proof.
  intros I. destruct (wf_reach G W x u I) as (xs & P). assert (R : reachable G u) by (exists xs; exact P). apply reach_node, In_nth_error in R. destruct R as (i & E).
  assert (L : i < S (length r)) by (rewrite <- (nodes_len (n_start G)); apply nth_error_Some; congruence).
  destruct (nth_error r i) as [[s v]|] eqn:Ei.
  - exists i, s, v. split; [exact Ei|]. destruct (row_nth G r _ _ i u s v HR E Ei) as (Es & _). rewrite <- Es. exact I.
  - exfalso. apply nth_error_None in Ei. assert (i = length r) by lia. subst i. pose proof (row_end G r _ _ HR) as Et.
    rewrite Et in E. injection E as <-. rewrite stop_no_out in I. destruct I.
Qed.
(** The arcs before an arc of a slot are those of the slot before. *)
Lemma lev_pred i x y : at_lev (S i) x -> (In y (n_in G (n_from G x)) <-> at_lev i y).
Proof.
  intros L. destruct (lev_from _ _ L) as [F _]. split.
  - intros I. destruct (wf_in G W y _ I) as [E O]. destruct (live_lev y _ O) as (j & Lj). pose proof (lev_to j y Lj) as T. rewrite E in T. pose proof (nodes_inj _ _ _ F T) as K. injection K as ->. exact Lj.
  - intros Ly. pose proof (lev_to i y Ly) as T. rewrite T in F. injection F as F. rewrite <- F. destruct (lev_from _ _ Ly) as [_ O]. apply (wf_out G W y _ O).
Qed.
Lemma lev_last x : In x (n_in G t) <-> exists i, at_lev i x /\ S i = length r.
Proof.
  pose proof (row_end G r _ _ HR) as K.
  split.
  - intros I. destruct (wf_in G W x _ I) as [E O]. destruct (live_lev x _ O) as (j & Lj). exists j. split; [exact Lj|]. pose proof (lev_to j x Lj) as T. rewrite E in T. symmetry. exact (nodes_inj _ _ _ K T).
  - intros (i & L & E). pose proof (lev_to i x L) as T. rewrite E, K in T. injection T as T. rewrite T. destruct (lev_from _ _ L) as [_ O]. apply (wf_out G W x _ O).
Qed.
End Row.
