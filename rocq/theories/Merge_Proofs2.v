(** Proofs about Merge_Model: deleting arcs. *)
From Coq Require Import List ZArith Arith Bool Lia.
From Verif Require Import Base Net_Model Net_Spec Net_Proofs1 Net_Proofs2 Merge_Model Merge_Spec.
Import ListNotations.

Lemma del_In l x y : In y (del_arc l x) <-> In y l /\ y <> x.
Proof. unfold del_arc. rewrite filter_In. rewrite negb_true_iff, Nat.eqb_neq. reflexivity. Qed.
Lemma del_NoDup l x : NoDup l -> NoDup (del_arc l x).
Proof. apply NoDup_filter. Qed.
Lemma del_nil l x : NoDup l -> In x l -> del_arc l x = [] -> l = [x].
Proof.
  intros ND I E. assert (A : forall y, In y l -> y = x).
  { intros y J. destruct (Nat.eq_dec y x) as [|NE]; [assumption|]. assert (In y (del_arc l x)) by (apply del_In; auto). rewrite E in H. destruct H. }
  destruct l as [|a [|b r]]; [destruct I|rewrite (A a) by (left; reflexivity); reflexivity|].
  inversion ND as [|? ? NI]. exfalso. apply NI. rewrite (A a), (A b) by (cbn; auto). left. reflexivity.
Qed.
Lemma del_self x : del_arc [x] x = [].
Proof. cbn. rewrite Nat.eqb_refl. reflexivity. Qed.
Lemma empty_spec A (l : list A) : empty l = true <-> l = [].
Proof. destruct l; cbn; split; congruence. Qed.
Lemma empty_false A (l : list A) : empty l = false <-> l <> [].
Proof. destruct l; cbn; split; congruence. Qed.
Lemma in_witness (l : list nat) : l <> [] -> exists y, In y l.
Proof. destruct l as [|y l]; [congruence|]. exists y. left. reflexivity. Qed.

Section Del.
Context {D : Type}.
Variables (N : net D) (x : nat).
Hypothesis W : wf_net N.
Hypothesis AX : arc_of N x.
Let u := n_from N x.
Let v := n_to N x.

Lemma x_out : In x (n_out N u).
Proof. destruct AX as (a & I). destruct (wf_out N W x a I) as (E & _). unfold u. rewrite E. exact I. Qed.
Lemma x_in : In x (n_in N v).
Proof. apply (wf_out N W x u x_out). Qed.
Lemma u_neq_v : u <> v.
Proof. intros E. apply (no_loop N x u W x_out). symmetry. exact E. Qed.
Lemma v_lt : v < n_nodes N.
Proof. apply (wf_out N W x u x_out). Qed.
Lemma u_lt : u < n_nodes N.
Proof. apply (wf_out N W x u x_out). Qed.
Lemma v_start : v <> n_start N.
Proof. apply (no_entry N x u W x_out). Qed.
Lemma has_stop : exists t, n_stop N = Some t.
Proof. destruct (wf_coreach N W x u x_out) as (t & _ & E & _). eauto. Qed.
Lemma u_stop : n_stop N <> Some u.
Proof. intros E. pose proof (wf_stop N W) as H. rewrite E in H. destruct H as (_ & O & _). pose proof x_out as I. rewrite O in I. destruct I. Qed.
Lemma out_from y a : In y (n_out N a) -> n_from N y = a.
Proof. intros I. apply (wf_out N W y a I). Qed.
Lemma x_only a : In x (n_out N a) -> a = u.
Proof. intros I. symmetry. apply out_from, I. Qed.
(** A path visits [x] once. *)
Lemma no_return xs : ~ npath N v xs u.
Proof.
  intros P. destruct (wf_rank N W) as (r & Hr). pose proof (proj1 (npath_rank N r v xs u Hr P)). pose proof (Hr x u x_out) as H1. fold v in H1. lia.
Qed.
Lemma after_v a xs : npath N v xs a -> ~ In x xs.
Proof.
  intros P I. apply in_split in I. destruct I as (l & r & ->). apply npath_split in P. destruct P as (w & P & Q). apply npath_cons_inv in Q. destruct Q as [I _].
  apply x_only in I. subst w. exact (no_return l P).
Qed.
Lemma before_u a xs : npath N a xs u -> ~ In x xs.
Proof.
  intros P I. apply in_split in I. destruct I as (l & r & ->). apply npath_split in P. destruct P as (w & P & Q). apply npath_cons_inv in Q. destruct Q as [_ Q].
  exact (no_return r Q).
Qed.
(** The last arc of a path. *)
Lemma last_arc a xs b : npath N a xs b -> a <> b -> exists ys y c, xs = ys ++ [y] /\ npath N a ys c /\ In y (n_out N c) /\ n_to N y = b.
Proof.
  intros P NE. destruct xs as [|y ys] using rev_ind; [apply npath_nil in P; congruence|]. clear IHys. apply npath_split in P. destruct P as (c & P & Q).
  apply npath_one in Q. destruct Q as [I E]. exists ys, y, c. auto.
Qed.

(** ** Only the arc is removed *)
Let N1 := {| n_from := n_from N; n_to := n_to N; n_data := n_data N;
             n_in := fupd (n_in N) v (del_arc (n_in N v) x);
             n_out := fupd (n_out N) u (del_arc (n_out N u) x);
             n_start := n_start N; n_stop := n_stop N; n_nodes := n_nodes N; n_arcs := n_arcs N |}.
Lemma out1 y a : In y (n_out N1 a) <-> In y (n_out N a) /\ y <> x.
Proof.
  cbn [n_out N1]. unfold fupd. destruct (Nat.eqb_spec a u) as [->|NE]; [apply del_In|]. split; [|tauto]. intros I. split; [exact I|]. intros ->. exact (NE (x_only a I)).
Qed.
Lemma in1 y a : In y (n_in N1 a) <-> In y (n_in N a) /\ y <> x.
Proof.
  cbn [n_in N1]. unfold fupd. destruct (Nat.eqb_spec a v) as [->|NE]; [apply del_In|]. split; [|tauto]. intros I. split; [exact I|]. intros ->.
  destruct (wf_in N W x a I) as [E _]. apply NE. symmetry. exact E.
Qed.
Lemma path1 a ys b : npath N1 a ys b <-> npath N a ys b /\ ~ In x ys.
Proof.
  split.
  - induction 1 as [a|a y ys b I P IH]; [split; [constructor|intros []]|]. apply out1 in I. destruct I as [I NE]. destruct IH as [P2 NI].
    split; [constructor; assumption|]. intros [E|J]; [congruence|exact (NI J)].
  - intros [P NI]. induction P as [a|a y ys b I P IH]; [constructor|]. constructor; [|apply IH; intros J; apply NI; right; exact J].
    apply out1. split; [exact I|]. intros ->. apply NI. left. reflexivity.
Qed.
Section Kept.
Hypothesis OV : exists z, In z (n_in N v) /\ z <> x.
Hypothesis OU : exists z, In z (n_out N u) /\ z <> x.
Lemma reach_v : exists xs, npath N (n_start N) xs v /\ ~ In x xs.
Proof.
  destruct OV as (z & I & NE). destruct (wf_in N W z v I) as [Ez O]. destruct (wf_reach N W z _ O) as (xs & P). exists (xs ++ [z]). split.
  - eapply npath_app; [exact P|]. apply npath_one. auto.
  - intros J. apply in_app_iff in J. destruct J as [J|[J|[]]]; [|congruence]. apply in_split in J. destruct J as (l & r & ->). apply npath_split in P.
    destruct P as (w & _ & Q). apply npath_cons_inv in Q. destruct Q as [_ Q]. fold v in Q. destruct (wf_rank N W) as (rk & Hr).
    pose proof (proj1 (npath_rank N rk _ _ _ Hr Q)). pose proof (Hr z _ O) as H1. rewrite Ez in H1. lia.
Qed.
Lemma reach_any a xs : npath N (n_start N) xs a -> exists ys, npath N (n_start N) ys a /\ ~ In x ys.
Proof.
  intros P. destruct (in_dec Nat.eq_dec x xs) as [I|NI]; [|eauto]. apply in_split in I. destruct I as (l & r & ->). apply npath_split in P.
  destruct P as (w & _ & Q). apply npath_cons_inv in Q. destruct Q as [_ Q]. fold v in Q. destruct reach_v as (ys & P & NI). exists (ys ++ r).
  split; [eapply npath_app; eassumption|]. rewrite in_app_iff. intros [J|J]; [exact (NI J)|exact (after_v _ _ Q J)].
Qed.
Lemma coreach_u : exists t xs, n_stop N = Some t /\ npath N u xs t /\ ~ In x xs.
Proof.
  destruct OU as (z & I & NE). destruct (wf_coreach N W z u I) as (t & xs & E & P). exists t, (z :: xs). split; [exact E|]. split; [constructor; assumption|].
  intros [J|J]; [congruence|]. apply in_split in J. destruct J as (l & r & ->). apply npath_split in P. destruct P as (w & P & Q). apply npath_cons_inv in Q.
  destruct Q as [O _]. apply x_only in O. subst w. destruct (wf_rank N W) as (rk & Hr). pose proof (proj1 (npath_rank N rk _ _ _ Hr P)). pose proof (Hr z u I). lia.
Qed.
Lemma coreach_any a xs t : n_stop N = Some t -> npath N a xs t -> exists ys, npath N a ys t /\ ~ In x ys.
Proof.
  intros E P. destruct (in_dec Nat.eq_dec x xs) as [I|NI]; [|eauto]. apply in_split in I. destruct I as (l & r & ->). apply npath_split in P.
  destruct P as (w & P & Q). apply npath_cons_inv in Q. destruct Q as [O _]. apply x_only in O. subst w. destruct coreach_u as (t' & ys & E' & Q & NI).
  assert (t' = t) by congruence. subst t'. exists (l ++ ys). split; [eapply npath_app; eassumption|]. rewrite in_app_iff. intros [J|J]; [exact (before_u _ _ P J)|exact (NI J)].
Qed.
Lemma kept_wf : wf_net N1.
Proof.
  constructor.
  - intros y a I. apply out1 in I. destruct I as [I NE]. destruct (wf_out N W y a I) as (A & B & C & E & F).
    split; [exact A|]. split; [exact B|]. split; [exact C|]. split; [exact E|]. apply in1. auto.
  - intros y a I. apply in1 in I. destruct I as [I NE]. destruct (wf_in N W y a I) as [A B]. split; [exact A|]. apply out1. auto.
  - intros a. cbn [n_out N1]. unfold fupd. destruct (a =? u); [apply del_NoDup|]; apply (wf_nd_out N W).
  - intros a. cbn [n_in N1]. unfold fupd. destruct (a =? v); [apply del_NoDup|]; apply (wf_nd_in N W).
  - destruct (wf_rank N W) as (r & Hr). exists r. intros y a I. apply out1 in I. apply Hr, I.
  - split; [apply (wf_start N W)|]. cbn [n_in N1 n_start]. rewrite fupd_other; [apply (wf_start N W)|]. intros E. apply v_start. symmetry. exact E.
  - cbn [n_stop N1]. destruct has_stop as (t & E). rewrite E. pose proof (wf_stop N W) as H. rewrite E in H. destruct H as (A & B & C & xs & P).
    split; [exact A|]. split; [|split; [exact C|]].
    + cbn [n_out N1]. rewrite fupd_other; [exact B|]. intros ->. exact (u_stop E).
    + destruct (reach_any _ _ P) as (ys & Q & NI). exists ys. apply path1. auto.
  - intros y a I. apply out1 in I. destruct I as [I _]. destruct (wf_reach N W y a I) as (xs & P). destruct (reach_any _ _ P) as (ys & Q & NI).
    exists ys. apply path1. auto.
  - intros y a I. apply out1 in I. destruct I as [I _]. destruct (wf_coreach N W y a I) as (t & xs & E & P). destruct (coreach_any _ _ _ E P) as (ys & Q & NI).
    exists t, ys. split; [exact E|]. apply path1. auto.
Qed.
End Kept.

(** ** The node where it begins is contracted *)
Section PullIn.
Hypothesis OUX : n_out N u = [x].
Hypothesis US : u <> n_start N.
Let N2 := pull_in N1 u v.
Lemma pi_in_u y : In y (n_in N1 u) <-> In y (n_in N u).
Proof. cbn [n_in N1]. rewrite fupd_other by apply u_neq_v. reflexivity. Qed.
Lemma pi_moved : n_in N1 u = n_in N u.
Proof. cbn [n_in N1]. rewrite fupd_other by apply u_neq_v. reflexivity. Qed.
Lemma pi_out_u : n_out N2 u = [].
Proof. cbn [N2 pull_in n_out]. apply fupd_same. Qed.
Lemma pi_out a : a <> u -> n_out N2 a = n_out N a.
Proof. intros NE. cbn [N2 pull_in n_out N1]. rewrite !fupd_other by exact NE. reflexivity. Qed.
Lemma pi_out_iff y a : In y (n_out N2 a) <-> a <> u /\ In y (n_out N a).
Proof.
  destruct (Nat.eq_dec a u) as [->|NE]; [rewrite pi_out_u; split; [intros []|tauto]|]. rewrite pi_out by exact NE. tauto.
Qed.
Lemma pi_to y a : In y (n_out N a) -> n_to N2 y = if n_to N y =? u then v else n_to N y.
Proof.
  intros I. cbn [N2 pull_in n_to]. rewrite pi_moved. cbn [N1 n_to]. destruct (Nat.eqb_spec (n_to N y) u) as [E|NE].
  - apply fupds_in. rewrite <- E. apply (wf_out N W y a I).
  - apply fupds_out. intros J. apply NE. apply (wf_in N W y u J).
Qed.
Lemma pi_nodup : NoDup (n_in N1 v ++ n_in N1 u).
Proof.
  apply NoDup_app_intro.
  - cbn [N1 n_in]. rewrite fupd_same. apply del_NoDup, (wf_nd_in N W).
  - rewrite pi_moved. apply (wf_nd_in N W).
  - intros y I J. apply in1 in I. rewrite pi_moved in J. apply u_neq_v. destruct I as [I _]. rewrite <- (proj1 (wf_in N W y v I)). symmetry. apply (wf_in N W y u J).
Qed.
Lemma pi_in_v y : In y (n_in N2 v) <-> (In y (n_in N v) /\ y <> x) \/ In y (n_in N u).
Proof.
  cbn [N2 pull_in n_in]. rewrite fupd_other by (intros E; apply u_neq_v; symmetry; exact E). rewrite fupd_same, add_arcs_app by apply pi_nodup.
  rewrite in_app_iff, in1, pi_moved. reflexivity.
Qed.
Lemma pi_in a : a <> u -> a <> v -> n_in N2 a = n_in N a.
Proof. intros NE NV. cbn [N2 pull_in n_in N1]. rewrite !fupd_other by assumption. reflexivity. Qed.
Lemma pi_in_u0 : n_in N2 u = [].
Proof. cbn [N2 pull_in n_in]. apply fupd_same. Qed.
Lemma pi_neq y a : In y (n_out N a) -> a <> u -> y <> x.
Proof. intros I NE ->. exact (NE (x_only a I)). Qed.
Lemma pi_up a ys b : npath N2 a ys b -> b <> u -> a <> u -> exists xs, npath N a xs b /\ ys = without x xs.
Proof.
  intros P NB. induction P as [a|a y ys b I P IH]; intros NA; [exists []; split; [constructor|reflexivity]|].
  apply pi_out_iff in I. destruct I as [_ I]. pose proof (pi_neq y a I NA) as NX. rewrite (pi_to y a I) in IH. destruct (Nat.eqb_spec (n_to N y) u) as [E|NE].
  - destruct IH as (xs & Q & ->); [exact NB|intros E2; apply u_neq_v; symmetry; exact E2|]. exists (y :: x :: xs). split.
    + constructor; [exact I|]. rewrite E. constructor; [apply x_out|exact Q].
    + cbn [without filter]. rewrite Nat.eqb_refl, (proj2 (Nat.eqb_neq _ _) NX). reflexivity.
  - destruct IH as (xs & Q & ->); [exact NB|exact NE|]. exists (y :: xs). split; [constructor; assumption|]. cbn [without filter].
    rewrite (proj2 (Nat.eqb_neq _ _) NX). reflexivity.
Qed.
Lemma pi_down n : forall a xs b, length xs < n -> npath N a xs b -> b <> u -> a <> u -> npath N2 a (without x xs) b.
Proof.
  induction n as [|n IH]; intros a xs b L P NB NA; [lia|]. inversion P as [|? y xs' ? I Q E1 E2 E3]; subst; [constructor|]. cbn [length] in L.
  pose proof (pi_neq y a I NA) as NX. cbn [without filter]. rewrite (proj2 (Nat.eqb_neq _ _) NX). cbn [negb]. constructor; [apply pi_out_iff; auto|].
  rewrite (pi_to y a I). destruct (Nat.eqb_spec (n_to N y) u) as [E|NE].
  - rewrite E in Q. inversion Q as [|? z xs2 ? J R]; subst; [congruence|]. rewrite OUX in J. destruct J as [<-|[]]. cbn [filter]; rewrite (Nat.eqb_refl x). cbn [negb].
    cbn [length] in L. apply IH; [lia|exact R|exact NB|]. intros E2. apply u_neq_v. symmetry. exact E2.
  - apply IH; [lia|exact Q|exact NB|exact NE].
Qed.
Lemma pi_wf : wf_net N2.
Proof.
  constructor.
  - intros y a I. apply pi_out_iff in I. destruct I as [NA I]. destruct (wf_out N W y a I) as (A & B & C & E & F). rewrite (pi_to y a I).
    split; [exact A|]. split; [exact B|]. split; [exact C|]. destruct (Nat.eqb_spec (n_to N y) u) as [EU|NE].
    + split; [apply v_lt|]. apply pi_in_v. right. rewrite <- EU. exact F.
    + split; [exact E|]. destruct (Nat.eq_dec (n_to N y) v) as [EV|NV]; [|rewrite pi_in by assumption; exact F].
      rewrite EV. apply pi_in_v. left. split; [rewrite <- EV; exact F|exact (pi_neq y a I NA)].
  - intros y b I. destruct (Nat.eq_dec b u) as [->|NU]; [rewrite pi_in_u0 in I; destruct I|].
    destruct (Nat.eq_dec b v) as [->|NV].
    + apply pi_in_v in I. change (n_from N2 y) with (n_from N y). destruct I as [[I NX]|I].
      * destruct (wf_in N W y v I) as [A B]. rewrite (pi_to y _ B), A. rewrite (proj2 (Nat.eqb_neq v u)) by (intros E; apply u_neq_v; symmetry; exact E).
        split; [reflexivity|]. apply pi_out_iff. split; [|exact B]. intros EU. rewrite EU, OUX in B. destruct B as [B|[]]. congruence.
      * destruct (wf_in N W y u I) as [A B]. rewrite (pi_to y _ B), A, Nat.eqb_refl. split; [reflexivity|]. apply pi_out_iff. split; [|exact B].
        intros EU. rewrite EU in B. exact (no_loop N y u W B A).
    + rewrite pi_in in I by assumption. destruct (wf_in N W y b I) as [A B]. change (n_from N2 y) with (n_from N y).
      rewrite (pi_to y _ B), A, (proj2 (Nat.eqb_neq _ _) NU). split; [reflexivity|]. apply pi_out_iff. split; [|exact B].
      intros EU. rewrite EU, OUX in B. destruct B as [B|[]]. apply NV. rewrite <- A, <- B. reflexivity.
  - intros a. destruct (Nat.eq_dec a u) as [->|NE]; [rewrite pi_out_u; constructor|]. rewrite pi_out by exact NE. apply (wf_nd_out N W).
  - intros a. destruct (Nat.eq_dec a u) as [->|NE]; [rewrite pi_in_u0; constructor|]. destruct (Nat.eq_dec a v) as [->|NV]; [|rewrite pi_in by assumption; apply (wf_nd_in N W)].
    cbn [N2 pull_in n_in]. rewrite fupd_other by (intros E; apply u_neq_v; symmetry; exact E). rewrite fupd_same, add_arcs_app by apply pi_nodup. apply pi_nodup.
  - destruct (wf_rank N W) as (r & Hr). exists r. intros y a I. apply pi_out_iff in I. destruct I as [_ I]. rewrite (pi_to y a I). pose proof (Hr y a I) as R.
    destruct (Nat.eqb_spec (n_to N y) u) as [E|_]; [|exact R]. rewrite E in R. pose proof (Hr x u x_out) as R2. fold v in R2. lia.
  - change (n_start N2) with (n_start N). split; [apply (wf_start N W)|]. rewrite pi_in; [apply (wf_start N W)|intros E; apply US; symmetry; exact E|intros E; apply v_start; symmetry; exact E].
  - change (n_stop N2) with (n_stop N). change (n_start N2) with (n_start N). destruct has_stop as (t & E). rewrite E. pose proof (wf_stop N W) as H. rewrite E in H.
    destruct H as (A & B & C & xs & P). assert (t <> u) by (intros ->; exact (u_stop E)). split; [exact A|]. split; [rewrite pi_out; assumption|]. split; [exact C|].
    exists (without x xs). apply (pi_down (S (length xs))); auto.
  - intros y a I. change (n_start N2) with (n_start N). apply pi_out_iff in I. destruct I as [NA I]. destruct (wf_reach N W y a I) as (xs & P).
    exists (without x xs). apply (pi_down (S (length xs))); auto.
  - intros y a I. change (n_stop N2) with (n_stop N). apply pi_out_iff in I. destruct I as [NA I]. destruct (wf_coreach N W y a I) as (t & xs & E & P).
    assert (NT : t <> u) by (intros ->; exact (u_stop E)). rewrite (pi_to y a I). destruct (Nat.eqb_spec (n_to N y) u) as [EU|NE].
    + rewrite EU in P. inversion P as [|? z xs2 ? J R]; subst; [congruence|]. rewrite OUX in J. destruct J as [<-|[]].
      exists t, (without x xs2). split; [exact E|]. apply (pi_down (S (length xs2))); auto. intros E2. apply u_neq_v. symmetry. exact E2.
    + exists t, (without x xs). split; [exact E|]. apply (pi_down (S (length xs))); auto.
Qed.
Lemma pi_arcs y : arc_of N2 y <-> arc_of N y /\ y <> x.
Proof.
  unfold arc_of. split.
  - intros (a & I). apply pi_out_iff in I. destruct I as [NA I]. split; [eauto|exact (pi_neq y a I NA)].
  - intros [(a & I) NX]. exists a. apply pi_out_iff. split; [|exact I]. intros ->. rewrite OUX in I. destruct I as [I|[]]. congruence.
Qed.
Lemma pi_says ws : nsays N2 ws <-> exists xs, full N xs /\ ws = map (n_data N) (without x xs).
Proof.
  unfold nsays, full. change (n_stop N2) with (n_stop N). change (n_start N2) with (n_start N). change (n_data N2) with (n_data N). destruct has_stop as (t & E). rewrite E.
  assert (NT : t <> u) by (intros ->; exact (u_stop E)). split.
  - intros (ys & P & <-). apply pi_up in P; [|exact NT|intros E2; apply US; symmetry; exact E2]. destruct P as (xs & P & ->). exists xs. split; [eauto|reflexivity].
  - intros (xs & (t' & E' & P) & ->). assert (t' = t) by congruence. subst t'. exists (without x xs). split; [|reflexivity]. apply (pi_down (S (length xs))); auto.
Qed.
End PullIn.

(** ** The node where it ends is contracted *)
Section PullOut.
Hypothesis IVX : n_in N v = [x].
Hypothesis VT : n_stop N <> Some v.
Let N2 := pull_out N1 u v.
Lemma po_moved : n_out N1 v = n_out N v.
Proof. cbn [n_out N1]. rewrite fupd_other by (intros E; apply u_neq_v; symmetry; exact E). reflexivity. Qed.
Lemma po_nodup : NoDup (n_out N1 u ++ n_out N1 v).
Proof.
  apply NoDup_app_intro.
  - cbn [N1 n_out]. rewrite fupd_same. apply del_NoDup, (wf_nd_out N W).
  - rewrite po_moved. apply (wf_nd_out N W).
  - intros y I J. apply out1 in I. rewrite po_moved in J. apply u_neq_v. rewrite <- (out_from y u (proj1 I)). apply out_from, J.
Qed.
Lemma po_out_v : n_out N2 v = [].
Proof. cbn [N2 pull_out n_out]. apply fupd_same. Qed.
Lemma po_out_u y : In y (n_out N2 u) <-> (In y (n_out N u) /\ y <> x) \/ In y (n_out N v).
Proof.
  cbn [N2 pull_out n_out]. rewrite fupd_other by apply u_neq_v. rewrite fupd_same, add_arcs_app by apply po_nodup. rewrite in_app_iff, out1, po_moved. reflexivity.
Qed.
Lemma po_out a : a <> u -> a <> v -> n_out N2 a = n_out N a.
Proof. intros NE NV. cbn [N2 pull_out n_out N1]. rewrite !fupd_other by assumption. reflexivity. Qed.
Lemma po_in a : a <> v -> n_in N2 a = n_in N a.
Proof. intros NV. cbn [N2 pull_out n_in N1]. rewrite !fupd_other by assumption. reflexivity. Qed.
Lemma po_in_v : n_in N2 v = [].
Proof. cbn [N2 pull_out n_in]. apply fupd_same. Qed.
Lemma po_from y : n_from N2 y = if mem y (n_out N v) then u else n_from N y.
Proof. cbn [N2 pull_out n_from]. rewrite po_moved. reflexivity. Qed.
Lemma po_arc y a : In y (n_out N2 a) -> exists b, In y (n_out N b) /\ y <> x /\ n_to N y <> v /\ a <> v /\ (b <> v /\ a = b \/ b = v /\ a = u).
Proof.
  intros I. assert (HB : exists b, In y (n_out N b) /\ y <> x /\ a <> v /\ (b <> v /\ a = b \/ b = v /\ a = u)).
  { destruct (Nat.eq_dec a u) as [->|NU].
    - apply po_out_u in I. destruct I as [[I NX]|I].
      + exists u. pose proof u_neq_v. repeat split; auto.
      + exists v. split; [exact I|]. split; [intros ->; apply u_neq_v; symmetry; apply x_only, I|]. split; [apply u_neq_v|auto].
    - destruct (Nat.eq_dec a v) as [->|NV]; [rewrite po_out_v in I; destruct I|]. rewrite po_out in I by assumption. exists a. split; [exact I|].
      split; [intros ->; exact (NU (x_only a I))|]. auto. }
  destruct HB as (b & J & NX & NV & HB). exists b. split; [exact J|]. split; [exact NX|]. split; [|auto].
  intros E. destruct (wf_out N W y b J) as (_ & _ & _ & _ & K). rewrite E, IVX in K. destruct K as [K|[]]. congruence.
Qed.
Lemma po_up a ys b : npath N2 a ys b -> a <> v -> exists xs, npath N a xs b /\ ys = without x xs.
Proof.
  intros P. induction P as [a|a y ys b I P IH]; intros NA; [exists []; split; [constructor|reflexivity]|].
  destruct (po_arc y a I) as (c & J & NX & NV & _ & HC). destruct IH as (xs & Q & ->); [exact NV|]. destruct HC as [[NC ->]|[-> ->]].
  - exists (y :: xs). split; [constructor; assumption|]. cbn [without filter]. rewrite (proj2 (Nat.eqb_neq _ _) NX). reflexivity.
  - exists (x :: y :: xs). split; [constructor; [apply x_out|]; constructor; assumption|]. cbn [without filter]. rewrite Nat.eqb_refl, (proj2 (Nat.eqb_neq _ _) NX). reflexivity.
Qed.
Lemma po_down n : forall a xs b, length xs < n -> npath N a xs b -> a <> v -> b <> v -> npath N2 a (without x xs) b.
Proof.
  induction n as [|n IH]; intros a xs b L P NA NB; [lia|]. inversion P as [|? y xs' ? I Q E1 E2 E3]; subst; [constructor|]. cbn [length] in L. cbn [without filter].
  destruct (Nat.eqb_spec y x) as [->|NX]; cbn [negb].
  - apply x_only in I. subst a. inversion Q as [|? z xs2 ? J R]; subst; [exfalso; apply NB; reflexivity|]. cbn [filter length] in *.
    assert (NZ : z <> x) by (intros ->; apply u_neq_v; symmetry; apply x_only, J). rewrite (proj2 (Nat.eqb_neq _ _) NZ). cbn [negb].
    constructor; [apply po_out_u; right; exact J|]. apply IH; [lia|exact R| |exact NB]. fold v in J. apply (no_loop N z v W J).
  - assert (NV : n_to N y <> v) by (intros E; destruct (wf_out N W y a I) as (_ & _ & _ & _ & K); rewrite E, IVX in K; destruct K as [K|[]]; congruence).
    constructor; [|apply IH; [lia|exact Q|exact NV|exact NB]]. destruct (Nat.eq_dec a u) as [->|NU]; [apply po_out_u; auto|]. rewrite po_out by assumption. exact I.
Qed.
Lemma po_wf : wf_net N2.
Proof.
  constructor.
  - intros y a I. destruct (po_arc y a I) as (b & J & NX & NV & NA & HB). destruct (wf_out N W y b J) as (A & B & C & E & F). change (n_to N2 y) with (n_to N y).
    rewrite po_from, po_in by exact NV. split; [|split; [exact B|]; split; [|auto]].
    + destruct HB as [[NB ->]|[-> ->]].
      * destruct (mem y (n_out N v)) eqn:M; [|exact A]. apply mem_In in M. exfalso. apply NB. rewrite <- A. apply out_from, M.
      * rewrite (proj2 (mem_In y (n_out N v)) J). reflexivity.
    + destruct HB as [[_ ->]|[_ ->]]; [exact C|apply u_lt].
  - intros y b I. destruct (Nat.eq_dec b v) as [->|NV]; [rewrite po_in_v in I; destruct I|]. rewrite po_in in I by exact NV. destruct (wf_in N W y b I) as [A B].
    split; [exact A|]. rewrite po_from. assert (NX : y <> x) by (intros ->; apply NV; symmetry; exact A). destruct (mem y (n_out N v)) eqn:M.
    + apply mem_In in M. apply po_out_u. auto.
    + apply mem_false in M. destruct (Nat.eq_dec (n_from N y) u) as [EU|NU]; [rewrite EU in *; apply po_out_u; auto|].
      rewrite po_out; [exact B|exact NU|]. intros EV. rewrite EV in B. exact (M B).
  - intros a. destruct (Nat.eq_dec a v) as [->|NV]; [rewrite po_out_v; constructor|]. destruct (Nat.eq_dec a u) as [->|NU]; [|rewrite po_out by assumption; apply (wf_nd_out N W)].
    cbn [N2 pull_out n_out]. rewrite fupd_other by apply u_neq_v. rewrite fupd_same, add_arcs_app by apply po_nodup. apply po_nodup.
  - intros a. destruct (Nat.eq_dec a v) as [->|NV]; [rewrite po_in_v; constructor|]. rewrite po_in by exact NV. apply (wf_nd_in N W).
  - destruct (wf_rank N W) as (r & Hr). exists r. intros y a I. destruct (po_arc y a I) as (b & J & NX & NV & NA & HB). change (n_to N2 y) with (n_to N y).
    pose proof (Hr y b J) as R. destruct HB as [[_ ->]|[-> ->]]; [exact R|]. pose proof (Hr x u x_out) as R2. fold v in R2. lia.
  - change (n_start N2) with (n_start N). split; [apply (wf_start N W)|]. rewrite po_in; [apply (wf_start N W)|intros E; apply v_start; symmetry; exact E].
  - change (n_stop N2) with (n_stop N). change (n_start N2) with (n_start N). destruct has_stop as (t & E). rewrite E. pose proof (wf_stop N W) as H. rewrite E in H.
    destruct H as (A & B & C & xs & P). assert (NU : t <> u) by (intros ->; exact (u_stop E)). assert (NV : t <> v) by (intros ->; exact (VT E)).
    split; [exact A|]. split; [rewrite po_out; assumption|]. split; [exact C|].
    exists (without x xs). apply (po_down (S (length xs))); auto. intros E2. apply v_start. symmetry. exact E2.
  - intros y a I. change (n_start N2) with (n_start N). destruct (po_arc y a I) as (b & J & NX & NV & NA & HB). 
    assert (PA : exists xs, npath N (n_start N) xs a). { destruct HB as [[_ ->]|[_ ->]]; [exact (wf_reach N W y b J)|exact (wf_reach N W x u x_out)]. }
    destruct PA as (xs & P). exists (without x xs). apply (po_down (S (length xs))); auto. intros E2. apply v_start. symmetry. exact E2.
  - intros y a I. change (n_stop N2) with (n_stop N). change (n_to N2 y) with (n_to N y). destruct (po_arc y a I) as (b & J & NX & NV & NA & HB).
    destruct (wf_coreach N W y b J) as (t & xs & E & P). exists t, (without x xs). split; [exact E|]. apply (po_down (S (length xs))); auto. intros ->. exact (VT E).
Qed.
Lemma po_arcs y : arc_of N2 y <-> arc_of N y /\ y <> x.
Proof.
  unfold arc_of. split.
  - intros (a & I). destruct (po_arc y a I) as (b & J & NX & _). eauto.
  - intros [(a & I) NX]. destruct (Nat.eq_dec a v) as [->|NV]; [exists u; apply po_out_u; auto|]. exists a.
    destruct (Nat.eq_dec a u) as [->|NU]; [apply po_out_u; auto|]. rewrite po_out by assumption. exact I.
Qed.
Lemma po_says ws : nsays N2 ws <-> exists xs, full N xs /\ ws = map (n_data N) (without x xs).
Proof.
  unfold nsays, full. change (n_stop N2) with (n_stop N). change (n_start N2) with (n_start N). change (n_data N2) with (n_data N). destruct has_stop as (t & E). rewrite E.
  assert (NT : t <> v) by (intros ->; exact (VT E)). assert (NS : n_start N <> v) by (intros E2; apply v_start; symmetry; exact E2). split.
  - intros (ys & P & <-). apply po_up in P; [|exact NS]. destruct P as (xs & P & ->). exists xs. split; [eauto|reflexivity].
  - intros (xs & (t' & E' & P) & ->). assert (t' = t) by congruence. subst t'. exists (without x xs). split; [|reflexivity]. apply (po_down (S (length xs))); auto.
Qed.
Lemma po_out_nonempty : exists y, In y (n_out N v).
Proof.
  destruct (wf_coreach N W x u x_out) as (t & xs & E & P). fold v in P. inversion P as [|? y ? ? I]; subst; [contradiction|eauto].
Qed.
End PullOut.

(** ** The last arc *)
Section Last.
Hypothesis IVX : n_in N v = [x].
Hypothesis VT : n_stop N = Some v.
(** Every path to the stop ends with [x]. *)
Lemma end_x a xs : npath N a xs v -> a <> v -> exists ys, xs = ys ++ [x] /\ npath N a ys u.
Proof.
  intros P NE. destruct (last_arc a xs v P NE) as (ys & y & c & -> & Q & I & E). destruct (wf_out N W y c I) as (_ & _ & _ & _ & J). rewrite E, IVX in J.
  destruct J as [<-|[]]. exists ys. split; [reflexivity|]. apply x_only in I. subst c. exact Q.
Qed.
Lemma la_out_u : n_out N u = [x].
Proof.
  assert (A : forall y, In y (n_out N u) -> y = x).
  { intros y I. destruct (Nat.eq_dec y x) as [|NX]; [assumption|]. exfalso. destruct (wf_coreach N W y u I) as (t & xs & E & P). assert (t = v) by congruence. subst t.
    assert (NV : n_to N y <> v). { intros E2. destruct (wf_out N W y u I) as (_ & _ & _ & _ & J). rewrite E2, IVX in J. destruct J as [J|[]]. congruence. }
    destruct (end_x _ _ P NV) as (ys & _ & Q). destruct (wf_rank N W) as (r & Hr). pose proof (proj1 (npath_rank N r _ _ _ Hr Q)). pose proof (Hr y u I). lia. }
  pose proof x_out as I. pose proof (wf_nd_out N W u) as ND. destruct (n_out N u) as [|a [|b r]]; [destruct I|rewrite (A a) by (left; reflexivity); reflexivity|].
  inversion ND as [|? ? NI]. exfalso. apply NI. rewrite (A a), (A b) by (cbn; auto). left. reflexivity.
Qed.
Hypothesis US : u = n_start N.
Lemma only_x y a : In y (n_out N a) -> y = x.
Proof.
  intros I. destruct (wf_coreach N W y a I) as (t & xs & E & P). assert (t = v) by congruence. subst t. destruct (Nat.eq_dec (n_to N y) v) as [EV|NV].
  - destruct (wf_out N W y a I) as (_ & _ & _ & _ & J). rewrite EV, IVX in J. destruct J as [J|[]]. congruence.
  - exfalso. destruct (end_x _ _ P NV) as (ys & _ & Q). rewrite US in Q. destruct (Nat.eq_dec (n_to N y) (n_start N)) as [EU|NU]; [exact (no_entry N y a W I EU)|].
    destruct (last_arc _ _ _ Q NU) as (zs & z & c & _ & _ & J & E2). exact (no_entry N z c W J E2).
Qed.
Let N2 := kill_stop N1 v.
Lemma ks_out a : n_out N2 a = [].
Proof.
  cbn [N2 kill_stop n_out]. unfold fupd. destruct (a =? v); [reflexivity|]. destruct (n_out N1 a) as [|y r] eqn:E; [reflexivity|]. exfalso.
  assert (I : In y (n_out N1 a)) by (rewrite E; left; reflexivity). apply out1 in I. destruct I as [I NX]. exact (NX (only_x y a I)).
Qed.
Lemma ks_in a : n_in N2 a = [].
Proof.
  cbn [N2 kill_stop n_in]. unfold fupd at 1. destruct (Nat.eqb_spec a v) as [|NV]; [reflexivity|]. destruct (n_in N1 a) as [|y r] eqn:E; [reflexivity|]. exfalso.
  assert (I : In y (n_in N1 a)) by (rewrite E; left; reflexivity). apply in1 in I. destruct I as [I NX]. destruct (wf_in N W y a I) as [A B]. exact (NX (only_x y _ B)).
Qed.
Lemma ks_wf : wf_net N2.
Proof.
  constructor; try (intros y a I; exfalso; first [rewrite ks_out in I; destruct I|rewrite ks_in in I; destruct I]).
  - intros a. rewrite ks_out. constructor.
  - intros a. rewrite ks_in. constructor.
  - exists (fun _ => 0). intros y a I. rewrite ks_out in I. destruct I.
  - split; [apply (wf_start N W)|apply ks_in].
  - intros a. apply ks_out.
Qed.
Lemma ks_full xs : full N xs <-> xs = [x].
Proof.
  unfold full. split.
  - intros (t & E & P). assert (t = v) by congruence. subst t. destruct (end_x _ _ P) as (ys & -> & Q); [rewrite <- US; apply u_neq_v|]. 
    destruct ys as [|y ys]; [reflexivity|]. exfalso. rewrite US in Q. destruct (wf_rank N W) as (r & Hr). pose proof (proj2 (npath_rank N r _ _ _ Hr Q)). assert (y :: ys <> []) by congruence. specialize (H H0). lia.
  - intros ->. exists v. split; [exact VT|]. apply npath_one. split; [rewrite <- US; apply x_out|reflexivity].
Qed.
Lemma ks_says ws : nsays N2 ws <-> exists xs, full N xs /\ ws = map (n_data N) (without x xs).
Proof.
  unfold nsays. cbn [N2 kill_stop n_stop]. split.
  - intros ->. exists [x]. split; [apply ks_full; reflexivity|]. cbn. rewrite Nat.eqb_refl. reflexivity.
  - intros (xs & F & ->). apply ks_full in F. subst xs. cbn. rewrite Nat.eqb_refl. reflexivity.
Qed.
Lemma ks_arcs y : arc_of N2 y <-> arc_of N y /\ y <> x.
Proof.
  unfold arc_of. split; [intros (a & I); rewrite ks_out in I; destruct I|]. intros [(a & I) NX]. destruct (NX (only_x y a I)).
Qed.
End Last.

(** ** All cases *)
Lemma del_cases :
  (~ alone N x /\ delete_arc N x = N1 /\ (exists z, In z (n_in N v) /\ z <> x) /\ (exists z, In z (n_out N u) /\ z <> x)) \/
  (alone N x /\ ((delete_arc N x = pull_in N1 u v /\ n_out N u = [x] /\ u <> n_start N) \/
                 (delete_arc N x = pull_out N1 u v /\ n_in N v = [x] /\ n_stop N <> Some v) \/
                 (delete_arc N x = kill_stop N1 v /\ n_in N v = [x] /\ n_stop N = Some v /\ u = n_start N))).
Proof.
  unfold delete_arc. fold u v. cbv zeta. change {| n_from := n_from N; n_to := n_to N; n_data := n_data N;
             n_in := fupd (n_in N) v (del_arc (n_in N v) x);
             n_out := fupd (n_out N) u (del_arc (n_out N u) x);
             n_start := n_start N; n_stop := n_stop N; n_nodes := n_nodes N; n_arcs := n_arcs N |} with N1.
  assert (E1 : n_in N1 v = del_arc (n_in N v) x) by (cbn [N1 n_in]; apply fupd_same).
  assert (E2 : n_out N1 u = del_arc (n_out N u) x) by (cbn [N1 n_out]; apply fupd_same).
  destruct (empty (n_in N1 v)) eqn:EV.
  - apply empty_spec in EV. rewrite E1 in EV. apply del_nil in EV; [|apply (wf_nd_in N W)|apply x_in]. right. split; [left; exact EV|].
    unfold is_stop. change (n_stop N1) with (n_stop N). change (n_start N1) with (n_start N). destruct has_stop as (t & ET). rewrite ET.
    destruct (Nat.eqb_spec v t) as [VT|NT].
    + assert (VT' : n_stop N = Some v) by congruence. destruct (Nat.eqb_spec u (n_start N)) as [US|NS]; cbn [negb andb].
      * right. right. change (n_start (kill_stop N1 v)) with (n_start N). rewrite (proj2 (Nat.eqb_eq _ _) US). rewrite VT in *.
        split; [destruct (empty _); reflexivity|]. split; [exact EV|]. split; [congruence|exact US].
      * left. split; [reflexivity|]. split; [exact (la_out_u EV VT')|exact NS].
    + right. left. cbn [andb]. assert (VT' : n_stop N <> Some v) by congruence. destruct (po_out_nonempty VT') as (y & I).
      assert (J : In y (n_out (pull_out N1 u v) u)) by (apply po_out_u; right; exact I).
      destruct (n_out (pull_out N1 u v) u) as [|z r]; [destruct J|]. cbn [empty]. split; [reflexivity|]. split; [exact EV|congruence].
  - apply empty_false in EV. cbn [andb]. destruct (empty (n_out N1 u)) eqn:EU.
    + apply empty_spec in EU. rewrite E2 in EU. apply del_nil in EU; [|apply (wf_nd_out N W)|apply x_out]. right. split; [right; exact EU|]. left.
      change (n_start N1) with (n_start N). destruct (Nat.eqb_spec u (n_start N)) as [US|NS]; [|auto]. exfalso.
      apply in_witness in EV. destruct EV as (z & I). apply in1 in I. destruct I as [I NZ]. destruct (wf_in N W z v I) as [A B]. destruct (wf_reach N W z _ B) as (xs & P).
      destruct xs as [|y xs].
      * apply npath_nil in P. rewrite P, <- US, EU in B. destruct B as [B|[]]. congruence.
      * apply npath_cons_inv in P. rewrite <- US, EU in P. destruct P as [[<-|[]] P]. fold v in P. destruct (wf_rank N W) as (r & Hr).
        pose proof (proj1 (npath_rank N r _ _ _ Hr P)). pose proof (Hr z _ B) as R. rewrite A in R. lia.
    + apply empty_false in EU. apply in_witness in EV, EU. destruct EV as (z & I), EU as (y & J). apply in1 in I. apply out1 in J. left.
      split; [|split; [reflexivity|split; [exists z; exact I|exists y; exact J]]].
      unfold alone. fold u v. intros [E|E].
      * destruct I as [I NZ]. rewrite E in I. destruct I as [I|[]]. congruence.
      * destruct J as [J NZ]. rewrite E in J. destruct J as [J|[]]. congruence.
Qed.
Lemma del_wf : wf_net (delete_arc N x).
Proof.
  destruct del_cases as [(_ & -> & A & B)|[_ [(-> & A & B)|[(-> & A & B)|(-> & A & B & C)]]]];
    [apply kept_wf|apply pi_wf|apply po_wf|apply ks_wf]; assumption.
Qed.
Lemma del_arcs y : arc_of (delete_arc N x) y <-> arc_of N y /\ y <> x.
Proof.
  destruct del_cases as [(_ & -> & A & B)|[_ [(-> & A & B)|[(-> & A & B)|(-> & A & B & C)]]]];
    [|apply pi_arcs|apply po_arcs|apply ks_arcs]; try assumption.
  unfold arc_of. split.
  - intros (a & I). apply out1 in I. destruct I. eauto.
  - intros [(a & I) NX]. exists a. apply out1. auto.
Qed.
Lemma del_alone_says ws : alone N x -> nsays (delete_arc N x) ws <-> exists xs, full N xs /\ ws = map (n_data N) (without x xs).
Proof.
  intros AL. destruct del_cases as [(NA & _)|[_ [(-> & A & B)|[(-> & A & B)|(-> & A & B & C)]]]]; [contradiction|apply pi_says|apply po_says|apply ks_says]; assumption.
Qed.
Lemma del_beside_says ws : ~ alone N x -> nsays (delete_arc N x) ws <-> exists xs, full N xs /\ ~ In x xs /\ ws = map (n_data N) xs.
Proof.
  intros NA. destruct del_cases as [(_ & -> & A & B)|[AL _]]; [|contradiction]. unfold nsays, full. change (n_stop N1) with (n_stop N). change (n_start N1) with (n_start N).
  change (n_data N1) with (n_data N). destruct has_stop as (t & E). rewrite E. split.
  - intros (xs & P & <-). apply path1 in P. exists xs. split; [exists t; split; [reflexivity|apply P]|]. split; [apply P|reflexivity].
  - intros (xs & (t' & E' & P) & NI & ->). assert (t' = t) by congruence. subst t'. exists xs. split; [|reflexivity]. apply path1. auto.
Qed.
Lemma del_kept : ~ alone N x -> delete_arc N x = N1.
Proof. intros NA. destruct del_cases as [(_ & E & _)|[AL _]]; [exact E|contradiction]. Qed.
End Del.
