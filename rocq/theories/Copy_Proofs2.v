(** Proofs about Copy_Model: the null arcs are removed. *)
From Coq Require Import List ZArith Arith Bool Lia.
From Verif Require Import Base Net_Model Net_Spec Net_Proofs1 Net_Proofs2 Net_Proofs3 NetDp_Model NetDp_Spec Merge_Model Merge_Spec Merge_Proofs Merge_Proofs2 Merge_Proofs3 Copy_Model Copy_Spec Copy_Proofs1.
Import ListNotations.
Local Open Scope res_scope.

Section Copy.
Context {D : Type}.

Lemma del_data (C : net D) x : n_data (delete_arc C x) = n_data C /\ n_start (delete_arc C x) = n_start C.
Proof.
  unfold delete_arc. cbv zeta. set (C1 := {| n_from := _ |}). destruct (empty (n_in C1 (n_to C x))).
  - destruct (is_stop C1 (n_to C x)).
    + destruct (negb (n_from C x =? n_start C1)); cbn [andb]; [split; reflexivity|].
      destruct (empty _); [|split; reflexivity]. destruct (_ =? _); split; reflexivity.
    + cbn [andb]. destruct (empty _); [|split; reflexivity]. destruct (_ =? _); split; reflexivity.
  - cbn [andb]. destruct (empty _); [|split; reflexivity]. destruct (_ =? _); split; reflexivity.
Qed.

Variable copy : D -> D.
Variable N : net D.
Hypothesis W : wf_net N.
Hypothesis NN : no_null_data N.
Variables (xs : list nat) (s : nat).
Hypothesis All : forall x, In x xs <-> live N x.
Hypothesis ST : n_stop N = Some s.
Variables (C0 : net D) (m : list (nat * nat)) (t : nat) (f g z : nat -> nat).
Hypothesis J : inv copy N xs C0 m t f g z.

Notation snode v := (seen N xs v /\ v <> n_start N).
Definition ft (dl : list nat) (v : nat) : nat := if (v =? s) && mem (z s) dl then t else f v.

Record inv2 (dl : list nat) (C : net D) : Prop := {
  j_wf : wf_net C;
  j_stop : n_stop C = Some t;
  j_start : n_start C = f (n_start N);
  j_data : n_data C = n_data C0;
  j_out : forall y p, In y (n_out C p) <->
    (exists x, In x xs /\ y = g x /\ p = f (n_from N x)) \/ (exists v, snode v /\ ~ In (z v) dl /\ y = z v /\ p = f v);
  j_arc : forall x, In x xs -> n_to C (g x) = ft dl (n_to N x);
  j_null : forall v, snode v -> ~ In (z v) dl -> n_to C (z v) = t
}.

Lemma inv2_0 : inv2 [] C0.
Proof.
  constructor.
  - apply (i_wf _ _ _ _ _ _ _ _ _ J).
  - apply (i_stop _ _ _ _ _ _ _ _ _ J).
  - symmetry. apply (i_start _ _ _ _ _ _ _ _ _ J).
  - reflexivity.
  - intros y p. rewrite (i_out _ _ _ _ _ _ _ _ _ J). split; (intros [H|(v & H)]; [now left|right; exists v]); cbn; tauto.
  - intros x I. unfold ft. cbn. rewrite andb_false_r. apply (i_arc _ _ _ _ _ _ _ _ _ J x I).
  - intros v [S1 S2] _. apply (i_null _ _ _ _ _ _ _ _ _ J v S1 S2).
Qed.
Lemma z_out v : snode v -> In (z v) (n_out C0 (f v)).
Proof. intros S1. apply (i_out _ _ _ _ _ _ _ _ _ J). right. exists v. tauto. Qed.
Lemma g_out x : In x xs -> In (g x) (n_out C0 (f (n_from N x))).
Proof. intros S1. apply (i_out _ _ _ _ _ _ _ _ _ J). left. exists x. tauto. Qed.
Lemma z_inj v w : snode v -> snode w -> z v = z w -> v = w.
Proof.
  intros Sv Sw E. apply (i_inj _ _ _ _ _ _ _ _ _ J); [tauto|tauto|]. pose proof (z_out v Sv) as A. pose proof (z_out w Sw) as B. rewrite E in A.
  pose proof (i_wf _ _ _ _ _ _ _ _ _ J) as WC. rewrite <- (proj1 (wf_out C0 WC _ _ A)). apply (wf_out C0 WC _ _ B).
Qed.
Lemma g_data x : In x xs -> n_data C0 (g x) <> None.
Proof.
  intros I. rewrite (proj2 (i_arc _ _ _ _ _ _ _ _ _ J x I)). apply All in I. destruct I as (u & I). pose proof (NN x u I). destruct (n_data N x); [discriminate|congruence].
Qed.
Lemma z_data v : snode v -> n_data C0 (z v) = None.
Proof. intros [S1 S2]. apply (i_null _ _ _ _ _ _ _ _ _ J v S1 S2). Qed.
Lemma g_not_z x v : In x xs -> snode v -> g x <> z v.
Proof. intros I S1 E. apply (g_data x I). rewrite E. apply z_data, S1. Qed.
Lemma stop_out : n_out N s = [].
Proof. pose proof (wf_stop N W) as H. rewrite ST in H. apply H. Qed.
Lemma from_not_stop x : In x xs -> n_from N x <> s.
Proof. intros I E. apply All in I. pose proof (live_from N W x I) as H. rewrite E, stop_out in H. destruct H. Qed.
Lemma leaves v : snode v -> v <> s -> exists x, In x xs /\ n_from N x = v.
Proof.
  intros [[H|(y & I & H)] S2] NE; [contradiction|]. apply All in I. pose proof (live_from N W y I) as I'.
  destruct (wf_coreach N W y _ I') as (t' & ps & E & P). rewrite H in P. rewrite ST in E. injection E as <-.
  destruct ps as [|x ps]; [apply npath_nil in P; congruence|]. apply npath_cons_inv in P. destruct P as [P _].
  exists x. split; [apply All; exists v; exact P|]. apply (wf_out N W x v P).
Qed.
Lemma stop_snode : snode s.
Proof.
  pose proof (wf_stop N W) as H. rewrite ST in H. destruct H as (_ & _ & NS & ps & P). split; [|exact NS].
  destruct (last_arc N _ _ _ P (fun E => NS (eq_sym E))) as (ys & y & c & _ & _ & I & E). right. exists y. split; [apply All; exists c; exact I|exact E].
Qed.

Lemma delete_step dl C v : inv2 dl C -> snode v -> ~ In (z v) dl -> inv2 (dl ++ [z v]) (delete_arc C (z v)).
Proof.
  intros K Sv Nd. pose proof (j_wf _ _ K) as WC.
  assert (IZ : In (z v) (n_out C (f v))) by (apply (j_out _ _ K); right; exists v; tauto).
  assert (AZ : arc_of C (z v)) by (exists (f v); exact IZ).
  assert (FZ : n_from C (z v) = f v) by apply (wf_out C WC _ _ IZ).
  pose proof (j_null _ _ K v Sv Nd) as TZ.
  assert (NS : f v <> n_start C).
  { rewrite (j_start _ _ K). intros E. apply (proj2 Sv). apply (i_inj _ _ _ _ _ _ _ _ _ J); [tauto|now left|exact E]. }
  assert (DLS : forall w, snode w -> ~ In (z w) (dl ++ [z v]) <-> (~ In (z w) dl /\ w <> v)).
  { intros w Sw. rewrite in_app_iff. cbn. split.
    - intros H. split; [tauto|]. intros ->. tauto.
    - intros [H1 H2] [H3|[H3|[]]]; [tauto|]. apply H2. symmetry. apply z_inj; assumption. }
  destruct (del_data C (z v)) as [ED ES].
  assert (OUT1 : forall y p, (In y (n_out C p) /\ y <> z v) <->
    ((exists x, In x xs /\ y = g x /\ p = f (n_from N x)) \/ (exists w, snode w /\ ~ In (z w) (dl ++ [z v]) /\ y = z w /\ p = f w))).
  { intros y p. rewrite (j_out _ _ K). split.
    - intros [[H|(w & Sw & Nw & -> & ->)] NE]; [now left|]. right. exists w. rewrite DLS by exact Sw. repeat split; try tauto. congruence.
    - intros [(x & I & -> & ->)|(w & Sw & Nw & -> & ->)].
      + split; [left; eauto|]. apply g_not_z; assumption.
      + apply DLS in Nw; [|exact Sw]. destruct Nw as [Nw NE]. split; [right; exists w; tauto|]. intros E. apply NE. apply z_inj; assumption. }
  destruct (del_cases C (z v) WC AZ) as [(_ & E & _ & (y & I & NY))|[_ [(E & E1 & _)|[(_ & _ & H)|(_ & _ & _ & H)]]]].
  - (* the node keeps another arc *)
    rewrite FZ in I.
    assert (VS : v <> s).
    { intros ->. apply (j_out _ _ K) in I. destruct I as [(x & Ix & _ & Ef)|(w & Sw & _ & -> & Ef)].
      - apply (from_not_stop x Ix). symmetry. apply (i_inj _ _ _ _ _ _ _ _ _ J); [tauto|apply (i_from _ _ _ _ _ _ _ _ _ J x Ix)|exact Ef].
      - apply NY. f_equal. symmetry. apply (i_inj _ _ _ _ _ _ _ _ _ J); tauto. }
    constructor.
    + apply del_wf; assumption.
    + rewrite E. exact (j_stop _ _ K).
    + rewrite ES. exact (j_start _ _ K).
    + rewrite ED. exact (j_data _ _ K).
    + intros a p. rewrite E, (out1 C (z v) WC). apply OUT1.
    + intros x Ix. rewrite E. cbn [n_to]. rewrite (j_arc _ _ K x Ix). unfold ft.
      replace (mem (z s) (dl ++ [z v])) with (mem (z s) dl); [reflexivity|].
      apply eq_true_iff_eq. rewrite !mem_In, in_app_iff. cbn. split; [auto|]. intros [H|[H|[]]]; [exact H|]. exfalso. apply VS. apply z_inj; [exact Sv|exact stop_snode|exact H].
    + intros w Sw Nw. rewrite E. cbn [n_to]. apply DLS in Nw; [|exact Sw]. apply (j_null _ _ K w Sw). tauto.
  - (* the last arc of the node *)
    rewrite FZ in E1.
    assert (VS : v = s).
    { destruct (Nat.eq_dec v s) as [H|NE]; [exact H|]. exfalso. destruct (leaves v Sv NE) as (x & Ix & Fx).
      assert (I : In (g x) (n_out C (f v))) by (apply (j_out _ _ K); left; exists x; rewrite Fx; auto). rewrite E1 in I. destruct I as [I|[]]. exact (g_not_z x v Ix Sv (eq_sym I)). }
    assert (OUX : n_out C (n_from C (z v)) = [z v]) by (rewrite FZ; exact E1).
    assert (US : n_from C (z v) <> n_start C) by (rewrite FZ; exact NS).
    constructor.
    + apply del_wf; assumption.
    + rewrite E. exact (j_stop _ _ K).
    + rewrite ES. exact (j_start _ _ K).
    + rewrite ED. exact (j_data _ _ K).
    + intros a p. rewrite E, (pi_out_iff C (z v)). rewrite <- OUT1, FZ. split.
      * intros [NP I]. split; [exact I|]. intros ->. apply NP. rewrite <- FZ. symmetry. apply (wf_out C WC _ _ I).
      * intros [I NA]. split; [|exact I]. intros ->. rewrite E1 in I. destruct I as [I|[]]. congruence.
    + intros x Ix. assert (I : In (g x) (n_out C (f (n_from N x)))) by (apply (j_out _ _ K); left; eauto).
      rewrite E, (pi_to C (z v) WC AZ (g x) _ I), FZ, TZ, (j_arc _ _ K x Ix). subst v. unfold ft.
      assert (M1 : mem (z s) dl = false) by (apply mem_false; exact Nd). assert (M2 : mem (z s) (dl ++ [z s]) = true) by (apply mem_In, in_app_iff; right; now left).
      rewrite M1, M2, andb_false_r, andb_true_r. destruct (Nat.eqb_spec (n_to N x) s) as [->|NE]; [rewrite Nat.eqb_refl; reflexivity|].
      destruct (Nat.eqb_spec (f (n_to N x)) (f s)) as [Ef|_]; [|reflexivity]. exfalso. apply NE. apply (i_inj _ _ _ _ _ _ _ _ _ J); [right; eauto|apply stop_snode|exact Ef].
    + intros w Sw Nw. apply DLS in Nw; [|exact Sw]. assert (I : In (z w) (n_out C (f w))) by (apply (j_out _ _ K); right; exists w; tauto).
      rewrite E, (pi_to C (z v) WC AZ (z w) _ I), FZ, TZ, (j_null _ _ K w Sw) by tauto. destruct (t =? f v); reflexivity.
  - exfalso. apply H. rewrite TZ. exact (j_stop _ _ K).
  - exfalso. apply NS. rewrite <- FZ. exact H.
Qed.

Lemma delete_steps L : forall dl C, inv2 dl C -> NoDup (dl ++ L) -> (forall y, In y L -> exists v, snode v /\ y = z v) -> inv2 (dl ++ L) (fold_left delete_arc L C).
Proof.
  induction L as [|y L IH]; intros dl C K ND H; cbn [fold_left].
  - rewrite app_nil_r. exact K.
  - destruct (H y (or_introl eq_refl)) as (v & Sv & ->).
    replace (dl ++ z v :: L) with ((dl ++ [z v]) ++ L) in * by (rewrite <- app_assoc; reflexivity).
    apply IH; [|exact ND|intros a I; apply H; now right]. apply delete_step; [exact K|exact Sv|].
    rewrite <- app_assoc in ND. cbn in ND. apply NoDup_remove_2 in ND. intros I. apply ND, in_app_iff. now left.
Qed.

Lemma delete_nulls_ok : exists C, delete_nulls C0 = Ok C /\ wf_net C /\ same_shape copy N C (fun v => if v =? s then t else f v) g.
Proof.
  unfold delete_nulls. pose proof (i_wf _ _ _ _ _ _ _ _ _ J) as WC0.
  destruct (depth_arcs C0 WC0) as (ys & E & ND & Ys & _). rewrite E. cbn [rbind]. set (L := filter (is_null_arc C0) ys).
  assert (HL : forall y, In y L <-> exists v, snode v /\ y = z v).
  { intros y. unfold L. rewrite filter_In, Ys. unfold is_null_arc. split.
    - intros [(p & I) H]. apply (i_out _ _ _ _ _ _ _ _ _ J) in I. destruct I as [(x & I & -> & _)|(v & S1 & S2 & -> & _)]; [|eauto].
      pose proof (g_data x I). destruct (n_data C0 (g x)); [discriminate|congruence].
    - intros (v & Sv & ->). split; [exists (f v); apply z_out, Sv|]. rewrite z_data by exact Sv. reflexivity. }
  pose proof (delete_steps L [] C0 inv2_0) as K. cbn [app] in K. specialize (K (NoDup_filter _ ND) (fun y H => proj1 (HL y) H)).
  set (C := fold_left delete_arc L C0) in *. clearbody C. exists C. split; [reflexivity|]. split; [exact (j_wf _ _ K)|].
  assert (ZS : mem (z s) L = true) by (apply mem_In, HL; exists s; split; [exact stop_snode|reflexivity]).
  assert (OUT : forall y p, In y (n_out C p) <-> exists x, In x xs /\ y = g x /\ p = f (n_from N x)).
  { intros y p. rewrite (j_out _ _ K). split; [|auto]. intros [H|(v & Sv & H & _)]; [exact H|]. exfalso. apply H. apply HL. eauto. }
  assert (FS : forall x u, In x (n_out N u) -> u <> s) by (intros x u I ->; rewrite stop_out in I; destruct I).
  assert (XL : forall x u, In x (n_out N u) -> In x xs /\ n_from N x = u) by (intros x u I; split; [apply All; exists u; exact I|apply (wf_out N W x u I)]).
  assert (RS : forall u, reachable N u -> seen N xs u).
  { apply reachable_ind; [now left|]. intros u x _ I. right. exists x. split; [apply (XL x u I)|reflexivity]. }
  constructor.
  - rewrite (j_start _ _ K). destruct (Nat.eqb_spec (n_start N) s) as [E'|_]; [|reflexivity]. exfalso. apply (proj2 stop_snode). congruence.
  - rewrite (j_stop _ _ K), ST. cbn. now rewrite Nat.eqb_refl.
  - intros x u I. destruct (XL x u I) as [Ix Fx]. rewrite (proj2 (Nat.eqb_neq _ _) (FS x u I)). split; [apply OUT; exists x; rewrite Fx; auto|].
    rewrite (j_arc _ _ K x Ix), (j_data _ _ K). split; [unfold ft; rewrite ZS, andb_true_r; reflexivity|]. apply (i_arc _ _ _ _ _ _ _ _ _ J x Ix).
  - intros y p I. apply OUT in I. destruct I as (x & Ix & -> & ->). pose proof (proj1 (All x) Ix) as Lx. exists x, (n_from N x).
    pose proof (live_from N W x Lx) as I. split; [exact I|]. split; [reflexivity|]. rewrite (proj2 (Nat.eqb_neq _ _) (FS x _ I)). reflexivity.
  - intros u v Ru Rv. apply RS in Ru, Rv. destruct (Nat.eqb_spec u s) as [->|NU], (Nat.eqb_spec v s) as [->|NV]; intros Ef.
    + reflexivity.
    + exfalso. apply (proj2 (i_node _ _ _ _ _ _ _ _ _ J v Rv)). congruence.
    + exfalso. apply (proj2 (i_node _ _ _ _ _ _ _ _ _ J u Ru)). congruence.
    + apply (i_inj _ _ _ _ _ _ _ _ _ J); assumption.
  - intros x y u v Ix Iy Eg. apply (i_names _ _ _ _ _ _ _ _ _ J); [apply (XL x u Ix)|apply (XL y v Iy)|exact Eg].
Qed.
End Copy.

Section Main.
Context {D : Type}.
Variable copy : D -> D.
Variable N : net D.
Hypothesis W : wf_net N.
Hypothesis NN : no_null_data N.
Theorem copy_ok : exists C f g, copy_net copy N = Ok C /\ wf_net C /\ same_shape copy N C f g.
Proof.
  destruct (depth_arcs N W) as (xs & E & ND & All & R). unfold copy_net. rewrite E. cbn [rbind].
  destruct (n_stop N) as [s|] eqn:ST.
  - assert (NE : xs <> []).
    { intros ->. pose proof (wf_stop N W) as H. rewrite ST in H. destruct H as (_ & _ & NS & ps & P).
      destruct ps as [|x ps]; [apply npath_nil in P; congruence|]. apply npath_cons_inv in P. destruct (proj2 (All x)). exists (n_start N). apply P. }
    destruct (all_steps copy N W xs NE ND (fun y H => proj1 (All y) H) R) as (C & m & t & f & g & z & E2 & J). rewrite E2. cbn [rbind fst].
    destruct (delete_nulls_ok copy N W NN xs s All ST C m t f g z J) as (C' & E3 & W' & SS). exists C', (fun v => if v =? s then t else f v), g. auto.
  - pose proof (wf_stop N W) as H. rewrite ST in H.
    assert (xs = []) as ->.
    { destruct xs as [|x xs]; [reflexivity|]. destruct (proj1 (All x) (or_introl eq_refl)) as (u & I). rewrite H in I. destruct I. }
    exists net_init, (fun _ => 0), (fun v => v). split; [reflexivity|]. split; [apply wf_init|].
    constructor.
    + reflexivity.
    + rewrite ST. reflexivity.
    + intros x u I. rewrite H in I. destruct I.
    + intros y p [].
    + assert (RS : forall u, reachable N u -> u = n_start N).
      { apply reachable_ind; [reflexivity|]. intros u x _ I. rewrite H in I. destruct I. }
      intros u v Ru Rv _. rewrite (RS u Ru), (RS v Rv). reflexivity.
    + intros x y u v I. rewrite H in I. destruct I.
Qed.

(** ** Paths and words of the same shape *)
Variables (C : net D) (f g : nat -> nat).
Hypothesis SS : same_shape copy N C f g.
Lemma shape_path u xs v : npath N u xs v -> npath C (f u) (map g xs) (f v).
Proof.
  induction 1 as [u|u x xs v I P IH]; cbn [map]; [constructor|]. destruct (ss_arcs _ _ _ _ _ SS x u I) as (I' & E & _).
  constructor; [exact I'|]. rewrite E. exact IH.
Qed.
Lemma shape_path_inv : forall ys u q, reachable N u -> npath C (f u) ys q -> exists xs v, ys = map g xs /\ q = f v /\ npath N u xs v.
Proof.
  induction ys as [|y ys IH]; intros u q R P.
  - apply npath_nil in P. exists [], u. split; [reflexivity|]. split; [exact P|constructor].
  - apply npath_cons_inv in P. destruct P as [I P]. destruct (ss_all _ _ _ _ _ SS y _ I) as (x & u' & I' & -> & E).
    assert (u = u') as <- by (apply (ss_nodes _ _ _ _ _ SS); [exact R|apply (wf_reach N W x u' I')|exact E]).
    rewrite (proj1 (proj2 (ss_arcs _ _ _ _ _ SS x u I'))) in P. destruct (IH (n_to N x) q (reachable_step N u x R I') P) as (xs & v & -> & -> & P').
    exists (x :: xs), v. split; [reflexivity|]. split; [reflexivity|constructor; assumption].
Qed.
Lemma path_data u xs v : npath N u xs v -> map (n_data C) (map g xs) = map (option_map copy) (map (n_data N) xs).
Proof. induction 1 as [u|u x xs v I P IH]; [reflexivity|]. cbn [map]. rewrite IH. f_equal. apply (ss_arcs _ _ _ _ _ SS x u I). Qed.
Theorem shape_says ws : nsays C ws <-> exists vs, nsays N vs /\ ws = map (option_map copy) vs.
Proof.
  unfold nsays. rewrite (ss_stop _ _ _ _ _ SS), (ss_start _ _ _ _ _ SS). pose proof (wf_stop N W) as Hs. destruct (n_stop N) as [s|]; cbn [option_map].
  - destruct Hs as (_ & _ & _ & (ps & Ps)). split.
    + intros (ys & P & <-). destruct (shape_path_inv ys _ _ (reachable_start N) P) as (xs & v & -> & E & P').
      assert (v = s) as -> by (apply (ss_nodes _ _ _ _ _ SS); [exists xs; exact P'|exists ps; exact Ps|congruence]).
      exists (map (n_data N) xs). split; [eauto|]. apply (path_data _ _ _ P').
    + intros (vs & (xs & P & <-) & ->). exists (map g xs). split; [apply shape_path, P|apply (path_data _ _ _ P)].
  - split; [intros ->; exists []; auto|]. intros (vs & -> & ->). reflexivity.
Qed.
End Main.
