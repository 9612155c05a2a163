(** Proofs about Copy_Model: the copies of the arcs, with a null arc from each node to the stop. *)
From Coq Require Import List ZArith Arith Bool Lia.
From Verif Require Import Base Net_Model Net_Spec Net_Proofs1 Net_Proofs2 Net_Proofs3 NetDp_Model Merge_Model Merge_Spec Merge_Proofs Merge_Proofs2 Merge_Proofs3 Copy_Model.
Import ListNotations.
Local Open Scope res_scope.

Section Order.
Context {D : Type}.
Variable N : net D.
Hypothesis W : wf_net N.
(** Every arc begins at the start or where an earlier one ends. *)
Definition rooted (xs : list nat) : Prop := forall pre x post, xs = pre ++ x :: post ->
  n_from N x = n_start N \/ exists y, In y pre /\ n_to N y = n_from N x.
Definition pointed (before : list nat) (v : nat) : Prop :=
  v = n_start N \/ exists y u, In u before /\ In y (n_out N u) /\ n_to N y = v.
Lemma pointed_more a b v : pointed a v -> pointed (a ++ b) v.
Proof. intros [H|(y & u & H1 & H2)]; [now left|]. right. exists y, u. split; [apply in_app_iff; now left|exact H2]. Qed.
Lemma trav_pointed : forall fuel fringe cnt seen done ns, trav Depth fuel N fringe cnt seen = Ok ns ->
  Forall (pointed done) fringe -> forall pre u post, ns = pre ++ u :: post -> pointed (done ++ pre) u.
Proof.
  induction fuel as [|fuel IH]; intros fringe cnt seen done ns E F pre u post E2; destruct fringe as [|a r]; cbn [trav] in E.
  - injection E as <-. destruct pre; discriminate.
  - discriminate.
  - injection E as <-. destruct pre; discriminate.
  - destruct (push_all Depth N (n_out N a) r cnt seen) as [[fr c] se] eqn:EP.
    destruct (trav Depth fuel N fr c se) as [rest| | |] eqn:ET; cbn [rbind] in E; try discriminate. injection E as <-.
    destruct pre as [|b pre].
    + injection E2 as -> ->. rewrite app_nil_r. exact (Forall_inv F).
    + injection E2 as -> E2. replace (done ++ b :: pre) with ((done ++ [b]) ++ pre) by (rewrite <- app_assoc; reflexivity).
      apply (IH fr c se (done ++ [b]) rest ET) with (post := post); [|exact E2].
      destruct (push_plain N Depth (n_out N b) r cnt seen fr c se ltac:(discriminate) EP) as (new & _ & _ & _ & H4 & H5 & _).
      rewrite Forall_forall. intros v Hv. apply (Permutation_in_iff v _ _ H4) in Hv. apply in_app_iff in Hv. destruct Hv as [Hv|Hv].
      * apply pointed_more. apply Forall_inv_tail in F. rewrite Forall_forall in F. auto.
      * destruct (H5 v Hv) as (x & Hx & ->). right. exists x, b. split; [apply in_app_iff; right; now left|auto].
Qed.
Lemma depth_arcs : exists xs, traverse_arcs Depth (S (n_nodes N)) N = Ok xs /\ NoDup xs /\
  (forall x, In x xs <-> exists u, In x (n_out N u)) /\ rooted xs.
Proof.
  destruct (traverse_arcs_plain N W Depth (S (n_nodes N)) ltac:(discriminate) ltac:(lia)) as (xs & E & ND & All).
  exists xs. split; [exact E|]. split; [exact ND|]. split; [exact All|].
  unfold traverse_arcs, traverse_nodes in E. cbn [rbind] in E.
  destruct (trav Depth (S (n_nodes N)) N [n_start N] (fun _ => 0%Z) [n_start N]) as [ns| | |] eqn:ET; cbn [rbind] in E; try discriminate.
  injection E as <-. intros pre x post E.
  pose proof (trav_pointed _ _ _ _ [] ns ET) as P.
  assert (F : Forall (pointed []) [n_start N]) by (constructor; [now left|constructor]). specialize (P F). cbn [app] in P.
  assert (G : exists l u r, ns = l ++ u :: r /\ In x (n_out N u) /\ incl (flat_map (n_out N) l) pre).
  { clear - E ND. revert pre E. induction ns as [|a ns IH]; intros pre E; cbn [flat_map] in *; [destruct pre; discriminate|].
    destruct (in_dec Nat.eq_dec x (n_out N a)) as [I|NI].
    - exists [], a, ns. split; [reflexivity|]. split; [exact I|]. intros z [].
    - destruct (split_prefix (n_out N a) (flat_map (n_out N) ns) pre x post E NI) as (m & ->).
      rewrite <- app_assoc in E. apply app_inv_head in E. 
      assert (ND' : NoDup (flat_map (n_out N) ns)) by (clear - ND; induction (n_out N a) as [|y l IHl]; [exact ND|inversion ND; auto]).
      destruct (IH ND' m E) as (l & u & r & -> & I & IN). exists (a :: l), u, r. split; [reflexivity|]. split; [exact I|].
      intros z Hz. cbn in Hz. apply in_app_iff in Hz. apply in_app_iff. destruct Hz; auto. }
  destruct G as (l & u & r & -> & I & IN). rewrite (proj1 (wf_out N W x u I)).
  destruct (P l u r eq_refl) as [H|(y & w & Hw & Hy & Ey)]; [now left|]. right. exists y. split; [|exact Ey].
  apply IN. apply in_flat_map. eauto.
Qed.
End Order.

Section Copy.
Context {D : Type}.
Variable copy : D -> D.
Variable N : net D.
Hypothesis W : wf_net N.

Lemma look_put_same m v q : look m v = None -> look (put_node m v q) v = Some q.
Proof.
  intros E. unfold put_node. rewrite E. induction m as [|[a b] m IH]; cbn [look app] in *; [now rewrite Nat.eqb_refl|].
  destruct (a =? v); [discriminate|auto].
Qed.
Lemma look_put_other m v q w : w <> v -> look (put_node m v q) w = look m w.
Proof.
  intros NE. unfold put_node. destruct (look m v); [reflexivity|]. induction m as [|[a b] m IH]; cbn [look app].
  - destruct (Nat.eqb_spec v w); [congruence|reflexivity].
  - rewrite IH. reflexivity.
Qed.
Lemma look_put_seen m v q b : look m v = Some b -> put_node m v q = m.
Proof. intros E. unfold put_node. now rewrite E. Qed.

Definition seen (pre : list nat) (v : nat) : Prop := v = n_start N \/ exists x, In x pre /\ n_to N x = v.
Lemma seen_dec pre v : {seen pre v} + {~ seen pre v}.
Proof.
  destruct (Nat.eq_dec v (n_start N)) as [E|E]; [left; now left|].
  destruct (in_dec Nat.eq_dec v (map (n_to N) pre)) as [I|I].
  - left. right. apply in_map_iff in I. destruct I as (x & H & I). eauto.
  - right. intros [H|(x & I2 & H)]; [contradiction|]. apply I. apply in_map_iff. eauto.
Qed.
Lemma seen_snoc pre x v : seen (pre ++ [x]) v <-> seen pre v \/ v = n_to N x.
Proof.
  unfold seen. split.
  - intros [H|(y & I & H)]; [auto|]. apply in_app_iff in I. destruct I as [I|[<-|[]]]; [left; right; eauto|auto].
  - intros [[H|(y & I & H)]|H]; [auto| |]; right; [exists y|exists x]; (split; [apply in_app_iff|congruence]); [auto|right; now left].
Qed.

Record inv (pre : list nat) (C : net D) (m : list (nat * nat)) (t : nat) (f g z : nat -> nat) : Prop := {
  i_wf : wf_net C;
  i_stop : n_stop C = Some t;
  i_look : forall v, seen pre v -> look m v = Some (f v);
  i_new : forall v, ~ seen pre v -> look m v = None;
  i_inj : forall u v, seen pre u -> seen pre v -> f u = f v -> u = v;
  i_node : forall v, seen pre v -> f v < n_nodes C /\ f v <> t;
  i_start : f (n_start N) = n_start C;
  i_out : forall y p, In y (n_out C p) <->
    (exists x, In x pre /\ y = g x /\ p = f (n_from N x)) \/ (exists v, seen pre v /\ v <> n_start N /\ y = z v /\ p = f v);
  i_arc : forall x, In x pre -> n_to C (g x) = f (n_to N x) /\ n_data C (g x) = dup copy (n_data N x);
  i_null : forall v, seen pre v -> v <> n_start N -> n_to C (z v) = t /\ n_data C (z v) = None;
  i_names : forall x y, In x pre -> In y pre -> g x = g y -> x = y;
  i_from : forall x, In x pre -> seen pre (n_from N x)
}.

Lemma pair_eq d : exists P : net D, pair_net d = P /\ wf_net P /\ n_stop P = Some 1 /\ n_start P = 0 /\ n_nodes P = 3 /\ n_arcs P = 2 /\
  (forall u, n_out P u = if u =? 0 then [0] else if u =? 2 then [1] else []) /\
  (forall u, n_in P u = if u =? 1 then [1] else if u =? 2 then [0] else []) /\
  n_to P 0 = 2 /\ n_to P 1 = 1 /\ n_data P 0 = d /\ n_data P 1 = None.
Proof.
  exists (pair_net d). split; [reflexivity|]. split.
  { unfold pair_net. apply tail_says. apply tail_says. apply wf_init. }
  do 4 (split; [reflexivity|]). split; [|split].
  - intros [|[|[|u]]]; reflexivity.
  - intros [|[|[|u]]]; reflexivity.
  - repeat split.
Qed.


Definition live (x : nat) : Prop := exists u, In x (n_out N u).
Lemma live_from x : live x -> In x (n_out N (n_from N x)).
Proof. intros (u & I). rewrite (proj1 (wf_out N W x u I)). exact I. Qed.
Lemma live_to x : live x -> n_to N x <> n_start N.
Proof. intros H. apply (no_entry N x (n_from N x) W). apply live_from, H. Qed.

Lemma first_step x : live x -> n_from N x = n_start N ->
  exists C m t f g z, copy_arc copy N (net_init, []) x = Ok (C, m) /\ inv [x] C m t f g z.
Proof.
  intros L F. pose proof (live_to x L) as NS. unfold copy_arc. rewrite F, Nat.eqb_refl. cbn [andb].
  change (match n_stop (@net_init D) with None => true | Some _ => false end) with true. cbn [andb]. cbv zeta.
  destruct (pair_eq (dup copy (n_data N x))) as (P & EP & WP & SP & StP & NP & AP & OP & IP & T0 & T1 & D0 & D1).
  unfold pair_net in EP. change (n_arcs (@net_init D)) with 0. change (n_start (@net_init D)) with 0. rewrite EP.
  assert (EL : look (put_node [] (n_start N) 0) (n_to N x) = None) by (rewrite look_put_other by exact NS; reflexivity).
  exists P, (put_node (put_node [] (n_start N) 0) (n_to N x) (n_to P 0)), 1, (fun v => if v =? n_start N then 0 else 2), (fun _ => 0), (fun _ => 1).
  split; [reflexivity|].
  assert (SE : forall v, seen [x] v <-> v = n_start N \/ v = n_to N x).
  { intros v. change [x] with ([] ++ [x]). rewrite seen_snoc. unfold seen. cbn. firstorder. }
  constructor.
  - exact WP.
  - exact SP.
  - intros v Hv. apply SE in Hv. destruct Hv as [->| ->].
    + rewrite Nat.eqb_refl, look_put_other by congruence. apply look_put_same. reflexivity.
    + rewrite (proj2 (Nat.eqb_neq _ _) NS), look_put_same by exact EL. congruence.
  - intros v Hv. rewrite SE in Hv. rewrite !look_put_other by tauto. reflexivity.
  - intros u v Hu Hv. apply SE in Hu, Hv. destruct Hu as [->| ->], Hv as [->| ->]; rewrite ?Nat.eqb_refl, ?(proj2 (Nat.eqb_neq _ _) NS); congruence.
  - intros v Hv. rewrite NP. destruct (v =? n_start N); lia.
  - rewrite Nat.eqb_refl. congruence.
  - intros y p. rewrite OP. split.
    + destruct (Nat.eqb_spec p 0) as [->|N0].
      * intros [<-|[]]. left. exists x. split; [now left|]. split; [reflexivity|]. rewrite F, Nat.eqb_refl. reflexivity.
      * destruct (Nat.eqb_spec p 2) as [->|N2]; [|intros []]. intros [<-|[]]. right. exists (n_to N x).
        split; [apply SE; now right|]. split; [exact NS|]. split; [reflexivity|]. rewrite (proj2 (Nat.eqb_neq _ _) NS). reflexivity.
    + intros [(x' & [<-|[]] & -> & ->)|(v & Hv & Hn & -> & ->)].
      * rewrite F, Nat.eqb_refl. now left.
      * rewrite (proj2 (Nat.eqb_neq _ _) Hn). now left.
  - intros x' [<-|[]]. rewrite (proj2 (Nat.eqb_neq _ _) NS). auto.
  - intros v _ _. auto.
  - intros a b [<-|[]] [<-|[]] _. reflexivity.
  - intros a [<-|[]]. rewrite F. now left.
Qed.

Section Step.
Variables (pre : list nat) (C : net D) (m : list (nat * nat)) (t : nat) (f g z : nat -> nat) (x : nat).
Hypothesis J : inv pre C m t f g z.
Hypothesis AP : forall y, In y pre -> live y.
Hypothesis L : live x.
Hypothesis NX : ~ In x pre.
Hypothesis SX : seen pre (n_from N x).
Let u := n_from N x.
Let v := n_to N x.
Let d := dup copy (n_data N x).

Lemma start_seen : seen pre (n_start N).
Proof. now left. Qed.
Lemma put_start : (if u =? n_start N then put_node m u (n_start C) else m) = m.
Proof.
  destruct (Nat.eqb_spec u (n_start N)) as [E|]; [|reflexivity]. apply (look_put_seen m u _ (f u)). apply (i_look _ _ _ _ _ _ _ J).
  exact SX.
Qed.
Lemma not_prime : (u =? n_start N) && match n_stop C with None => true | _ => false end = false.
Proof. rewrite (i_stop _ _ _ _ _ _ _ J). apply andb_false_r. Qed.
Lemma null_of w : seen pre w -> w <> n_start N -> In (z w) (n_out C (f w)).
Proof. intros S1 S2. apply (i_out _ _ _ _ _ _ _ J). right. exists w. auto. Qed.
Lemma stop_facts' : t < n_nodes C /\ n_out C t = [] /\ t <> n_start C /\ exists xs, npath C (n_start C) xs t.
Proof. pose proof (wf_stop C (i_wf _ _ _ _ _ _ _ J)) as H. rewrite (i_stop _ _ _ _ _ _ _ J) in H. exact H. Qed.
(** A path to the stop from each copied node. *)
Lemma to_stop w : seen pre w -> exists xs, xs <> [] /\ npath C (f w) xs t.
Proof.
  intros S1. destruct (Nat.eq_dec w (n_start N)) as [->|NE].
  - rewrite (i_start _ _ _ _ _ _ _ J). destruct stop_facts' as (_ & _ & NT & xs & P). exists xs. split; [|exact P].
    intros ->. apply npath_nil in P. congruence.
  - exists [z w]. split; [discriminate|]. apply npath_one. split; [apply null_of; assumption|]. symmetry. apply (i_null _ _ _ _ _ _ _ J w S1 NE).
Qed.
Lemma from_start w : seen pre w -> exists xs, npath C (n_start C) xs (f w).
Proof.
  intros S1. destruct (to_stop w S1) as (xs & NE & P). destruct xs as [|y xs]; [congruence|]. apply npath_cons_inv in P. destruct P as [I _].
  exact (wf_reach C (i_wf _ _ _ _ _ _ _ J) y (f w) I).
Qed.

Lemma merge_step : ~ seen pre v -> exists C' m' f' g' z', copy_arc copy N (C, m) x = Ok (C', m') /\ inv (pre ++ [x]) C' m' t f' g' z'.
Proof.
  intros NV. unfold copy_arc. fold u v d. rewrite put_start, not_prime. rewrite (i_new _ _ _ _ _ _ _ J v NV), (i_look _ _ _ _ _ _ _ J u SX), (i_stop _ _ _ _ _ _ _ J).
  destruct (pair_eq d) as (P & -> & WP & SP & StP & NP & APn & OP & IP & T0 & T1 & D0 & D1).
  unfold merge. rewrite SP. cbn [rbind]. set (C' := merge_at C (f u) t P 1).
  pose proof (i_wf _ _ _ _ _ _ _ J) as WC. pose proof (to_stop u SX) as PUV.
  assert (WC' : wf_net C') by (apply (merge_at_wf C P (f u) t 1 WC WP SP PUV)).
  destruct (at_facts C (f u) t WC PUV) as (Lu & Lt & _).
  assert (TO0 : n_to C' (n_arcs C) = n_nodes C + 2).
  { pose proof (to_new C P (f u) t 1 WP Lu Lt 0 0) as H. fold C' in H. rewrite Nat.add_0_r in H. rewrite H.
    - rewrite T0. unfold place. rewrite StP. reflexivity.
    - rewrite OP. now left. }
  assert (TO1 : n_to C' (n_arcs C + 1) = t).
  { pose proof (to_new C P (f u) t 1 WP Lu Lt 1 2) as H. fold C' in H. rewrite H.
    - rewrite T1. unfold place. rewrite StP. reflexivity.
    - rewrite OP. now left. }
  assert (OUT : forall y p, In y (n_out C' p) <-> In y (n_out C p) \/ (y = n_arcs C /\ p = f u) \/ (y = n_arcs C + 1 /\ p = n_nodes C + 2)).
  { intros y p. destruct (Nat.lt_ge_cases p (n_nodes C)) as [Lp|Lp].
    - destruct (Nat.eq_dec p (f u)) as [->|NE].
      + unfold C'. rewrite (out_u C P (f u) t 1 WC WP Lu Lt), StP, OP, in_app_iff. cbn. rewrite Nat.add_0_r. intuition lia.
      + unfold C'. rewrite (out_old C P (f u) t 1) by assumption. intuition lia.
    - assert (E0 : n_out C p = []).
      { destruct (n_out C p) as [|q l] eqn:E; [reflexivity|]. exfalso. assert (I : In q (n_out C p)) by (rewrite E; now left). pose proof (wf_out C WC q p I). lia. }
      rewrite E0. replace p with (n_nodes C + (p - n_nodes C)) by lia. destruct (Nat.eq_dec (p - n_nodes C) 0) as [E|NE].
      + rewrite E. pose proof (out_new_start C P (f u) t 1 Lu Lt) as H. rewrite StP in H. fold C' in H. rewrite H. cbn. intuition lia.
      + unfold C'. rewrite (out_new C P (f u) t 1 Lu Lt) by (rewrite StP; exact NE). rewrite OP.
        rewrite (proj2 (Nat.eqb_neq _ _) NE). destruct (Nat.eqb_spec (p - n_nodes C) 2) as [E|N2]; cbn; intuition lia. }
  assert (OLDTO : forall y p, In y (n_out C p) -> n_to C' y = n_to C y).
  { intros y p I. apply (to_old C P (f u) t 1). apply (wf_out C WC y p I). }
  assert (OLDDATA : forall y p, In y (n_out C p) -> n_data C' y = n_data C y).
  { intros y p I. apply (data_old' C P (f u) t 1). apply (wf_out C WC y p I). }
  assert (INPRE : forall y, In y pre -> In (g y) (n_out C (f (n_from N y)))) by (intros y I; apply (i_out _ _ _ _ _ _ _ J); left; eauto).
  assert (VU : u <> v) by (intros E; rewrite <- E in NV; contradiction).
  assert (VF : forall y, In y pre -> n_from N y <> v) by (intros y I E; apply NV; rewrite <- E; apply (i_from _ _ _ _ _ _ _ J), I).
  assert (VT : forall y, In y pre -> n_to N y <> v) by (intros y I E; apply NV; right; eauto).
  assert (SN : forall w, seen pre w -> w <> v) by (intros w S1 E; rewrite E in S1; contradiction).
  pose proof (live_to x L) as VS. fold v in VS.
  exists C', (put_node m v (n_to C' (n_arcs C))), (fupd f v (n_nodes C + 2)), (fupd g x (n_arcs C)), (fupd z v (n_arcs C + 1)).
  split; [reflexivity|]. constructor.
  - exact WC'.
  - exact (i_stop _ _ _ _ _ _ _ J).
  - intros w S1. apply seen_snoc in S1. fold v in S1. destruct (Nat.eq_dec w v) as [->|NE].
    + rewrite fupd_same, look_put_same by (apply (i_new _ _ _ _ _ _ _ J), NV). congruence.
    + rewrite fupd_other, look_put_other by exact NE. apply (i_look _ _ _ _ _ _ _ J). tauto.
  - intros w S1. rewrite seen_snoc in S1. fold v in S1. rewrite look_put_other by tauto. apply (i_new _ _ _ _ _ _ _ J). tauto.
  - intros a b Sa Sb. apply seen_snoc in Sa, Sb. fold v in Sa, Sb.
    destruct (Nat.eq_dec a v) as [->|NA], (Nat.eq_dec b v) as [->|NB]; rewrite ?fupd_same, ?fupd_other by assumption; intros E; [reflexivity| | |].
    + destruct (i_node _ _ _ _ _ _ _ J b) as [H _]; [tauto|lia].
    + destruct (i_node _ _ _ _ _ _ _ J a) as [H _]; [tauto|lia].
    + apply (i_inj _ _ _ _ _ _ _ J); tauto.
  - intros w S1. apply seen_snoc in S1. fold v in S1. change (n_nodes C') with (n_nodes C + n_nodes P). rewrite NP.
    destruct (Nat.eq_dec w v) as [->|NE]; [rewrite fupd_same; lia|]. rewrite fupd_other by exact NE.
    destruct (i_node _ _ _ _ _ _ _ J w); [tauto|lia].
  - rewrite fupd_other by congruence. exact (i_start _ _ _ _ _ _ _ J).
  - intros y p. rewrite OUT, (i_out _ _ _ _ _ _ _ J). split.
    + intros [[(x' & I & -> & ->)|(w & S1 & S2 & -> & ->)]|[[-> ->]|[-> ->]]].
      * left. exists x'. split; [apply in_app_iff; now left|]. rewrite (fupd_other _ g) by (intros ->; contradiction). rewrite fupd_other by (apply VF, I). auto.
      * right. exists w. split; [apply seen_snoc; now left|]. rewrite !fupd_other by (apply SN, S1). auto.
      * left. exists x. split; [apply in_app_iff; right; now left|]. rewrite fupd_same. fold u. rewrite fupd_other by exact VU. auto.
      * right. exists v. split; [apply seen_snoc; now right|]. rewrite !fupd_same. auto.
    + intros [(x' & I & -> & ->)|(w & S1 & S2 & -> & ->)].
      * apply in_app_iff in I. destruct I as [I|[<-|[]]].
        -- left. left. exists x'. rewrite (fupd_other _ g) by (intros ->; contradiction). rewrite fupd_other by (apply VF, I). auto.
        -- right. left. rewrite fupd_same. fold u. rewrite fupd_other by exact VU. auto.
      * destruct (Nat.eq_dec w v) as [->|NE]; [rewrite !fupd_same; auto|]. left. right. exists w. apply seen_snoc in S1. fold v in S1.
        rewrite !fupd_other by exact NE. split; [tauto|auto].
  - intros x' I. apply in_app_iff in I. destruct I as [I|[<-|[]]].
    + rewrite (fupd_other _ g) by (intros ->; contradiction). rewrite fupd_other by (apply VT, I).
      rewrite (OLDTO _ _ (INPRE x' I)), (OLDDATA _ _ (INPRE x' I)). apply (i_arc _ _ _ _ _ _ _ J x' I).
    + rewrite fupd_same. fold v. rewrite fupd_same. split; [exact TO0|]. unfold C'. rewrite <- (Nat.add_0_r (n_arcs C)). rewrite data_new by assumption. exact D0.
  - intros w S1 S2. apply seen_snoc in S1. fold v in S1. destruct (Nat.eq_dec w v) as [->|NE].
    + rewrite fupd_same. split; [exact TO1|]. unfold C'. rewrite data_new by assumption. exact D1.
    + rewrite fupd_other by exact NE. assert (S1' : seen pre w) by tauto. pose proof (null_of w S1' S2) as I.
      rewrite (OLDTO _ _ I), (OLDDATA _ _ I). apply (i_null _ _ _ _ _ _ _ J w S1' S2).
  - intros a b Ia Ib. apply in_app_iff in Ia, Ib. destruct (Nat.eq_dec a x) as [->|NA], (Nat.eq_dec b x) as [->|NB]; rewrite ?fupd_same, ?fupd_other by assumption; intros E; [reflexivity| | |].
    + destruct Ib as [Ib|[Ib|[]]]; [|congruence]. pose proof (wf_out C WC _ _ (INPRE b Ib)). lia.
    + destruct Ia as [Ia|[Ia|[]]]; [|congruence]. pose proof (wf_out C WC _ _ (INPRE a Ia)). lia.
    + destruct Ia as [Ia|[Ia|[]]]; [|congruence]. destruct Ib as [Ib|[Ib|[]]]; [|congruence]. apply (i_names _ _ _ _ _ _ _ J); assumption.
  - intros a I. apply seen_snoc. apply in_app_iff in I. destruct I as [I|[<-|[]]]; [left; apply (i_from _ _ _ _ _ _ _ J), I|left; exact SX].
Qed.

(** A rank of the nodes of the copy. *)
Definition back (p : nat) : option nat := find (fun w => match look m w with Some q => q =? p | None => false end) (seq 0 (n_nodes N)).
Lemma back_f w : seen pre w -> w < n_nodes N -> back (f w) = Some w.
Proof.
  intros S1 Lw. unfold back. set (l := seq 0 (n_nodes N)). assert (I : In w l) by (apply in_seq; lia). clearbody l. induction l as [|a l IH]; [destruct I|].
  cbn [find]. destruct (seen_dec pre a) as [Sa|Sa].
  - rewrite (i_look _ _ _ _ _ _ _ J a Sa). destruct (Nat.eqb_spec (f a) (f w)) as [E|NE]; [f_equal; apply (i_inj _ _ _ _ _ _ _ J); assumption|].
    destruct I as [->|I]; [congruence|auto].
  - rewrite (i_new _ _ _ _ _ _ _ J a Sa). destruct I as [->|I]; [contradiction|auto].
Qed.
Lemma seen_lt w : seen pre w -> w < n_nodes N.
Proof. intros [->|(y & I & <-)]; [apply (wf_start N W)|]. apply (wf_out N W y (n_from N y)). apply live_from, AP, I. Qed.

Lemma between_step : seen pre v -> exists C' m' f' g' z', copy_arc copy N (C, m) x = Ok (C', m') /\ inv (pre ++ [x]) C' m' t f' g' z'.
Proof.
  intros SV. unfold copy_arc. fold u v d. rewrite put_start, not_prime. rewrite (i_look _ _ _ _ _ _ _ J v SV), (i_look _ _ _ _ _ _ _ J u SX).
  pose proof (i_wf _ _ _ _ _ _ _ J) as WC. set (C' := insert_between C (f u) (f v) d).
  assert (NT : forall w, seen pre w -> f w <> t) by (intros w S1; apply (i_node _ _ _ _ _ _ _ J w S1)).
  assert (HR : exists r : nat -> nat, (forall y w, In y (n_out C w) -> r w < r (n_to C y)) /\ r (f u) < r (f v)).
  { destruct (wf_rank N W) as (r & Hr).
    set (rr := fun p => if p =? t then S (maxrank r (n_nodes N)) else match back p with Some w => r w | None => 0 end).
    assert (RF : forall w, seen pre w -> rr (f w) = r w).
    { intros w S1. unfold rr. rewrite (proj2 (Nat.eqb_neq _ _) (NT w S1)), back_f by (try apply seen_lt; exact S1). reflexivity. }
    exists rr. split.
    - intros y p I. apply (i_out _ _ _ _ _ _ _ J) in I. destruct I as [(x' & I & -> & ->)|(w & S1 & S2 & -> & ->)].
      + rewrite (proj1 (i_arc _ _ _ _ _ _ _ J x' I)), !RF; [apply Hr, live_from, AP, I|right; eauto|apply (i_from _ _ _ _ _ _ _ J), I].
      + rewrite (proj1 (i_null _ _ _ _ _ _ _ J w S1 S2)), RF by exact S1. unfold rr. rewrite Nat.eqb_refl.
        pose proof (maxrank_le N N w w (seen_lt w S1) (seen_lt w S1) r (n_nodes N) w (seen_lt w S1)). lia.
    - rewrite !RF by assumption. apply Hr. apply live_from, L. }
  assert (CV : exists t0 xs, n_stop C = Some t0 /\ npath C (f v) xs t0).
  { destruct (to_stop v SV) as (xs & _ & P). exists t, xs. split; [apply (i_stop _ _ _ _ _ _ _ J)|exact P]. }
  pose proof (btw_wf C (f u) (f v) d WC (from_start u SX) CV (proj1 (i_node _ _ _ _ _ _ _ J v SV)) HR) as WC'. fold C' in WC'.
  assert (INPRE : forall y, In y pre -> In (g y) (n_out C (f (n_from N y)))) by (intros y I; apply (i_out _ _ _ _ _ _ _ J); left; eauto).
  assert (OLDTO : forall y p, In y (n_out C p) -> n_to C' y = n_to C y) by (intros y p I; apply (btw_to_old C (f u) (f v) d WC (proj1 (i_node _ _ _ _ _ _ _ J v SV)) y p I)).
  assert (OLDDATA : forall y p, In y (n_out C p) -> n_data C' y = n_data C y).
  { intros y p I. cbn. apply fupd_other. pose proof (wf_out C WC y p I). lia. }
  assert (SEQ : forall w, seen (pre ++ [x]) w <-> seen pre w).
  { intros w. rewrite seen_snoc. fold v. split; [intros [H| ->]; assumption|auto]. }
  exists C', m, f, (fupd g x (n_arcs C)), z. split; [reflexivity|]. constructor.
  - exact WC'.
  - exact (i_stop _ _ _ _ _ _ _ J).
  - intros w S1. apply (i_look _ _ _ _ _ _ _ J), SEQ, S1.
  - intros w S1. rewrite SEQ in S1. apply (i_new _ _ _ _ _ _ _ J), S1.
  - intros a b Sa Sb. apply (i_inj _ _ _ _ _ _ _ J); apply SEQ; assumption.
  - intros w S1. apply SEQ in S1. apply (i_node _ _ _ _ _ _ _ J w S1).
  - exact (i_start _ _ _ _ _ _ _ J).
  - intros y p. unfold C'. rewrite (btw_out_In C (f u) (f v) d WC (proj1 (i_node _ _ _ _ _ _ _ J v SV))), (i_out _ _ _ _ _ _ _ J). split.
    + intros [[(x' & I & -> & ->)|(w & S1 & S2 & -> & ->)]|[-> ->]].
      * left. exists x'. split; [apply in_app_iff; now left|]. rewrite fupd_other by (intros ->; contradiction). auto.
      * right. exists w. rewrite SEQ. auto.
      * left. exists x. split; [apply in_app_iff; right; now left|]. rewrite fupd_same. auto.
    + intros [(x' & I & -> & ->)|(w & S1 & S2 & -> & ->)].
      * apply in_app_iff in I. destruct I as [I|[<-|[]]]; [|right; rewrite fupd_same; auto].
        left. left. exists x'. rewrite fupd_other by (intros ->; contradiction). auto.
      * left. right. exists w. rewrite SEQ in S1. auto.
  - intros x' I. apply in_app_iff in I. destruct I as [I|[<-|[]]].
    + rewrite fupd_other by (intros ->; contradiction). rewrite (OLDTO _ _ (INPRE x' I)), (OLDDATA _ _ (INPRE x' I)). apply (i_arc _ _ _ _ _ _ _ J x' I).
    + rewrite fupd_same. split; [apply (btw_to_new C (f u) (f v) d)|]. cbn. apply fupd_same.
  - intros w S1 S2. apply SEQ in S1. pose proof (null_of w S1 S2) as I. rewrite (OLDTO _ _ I), (OLDDATA _ _ I). apply (i_null _ _ _ _ _ _ _ J w S1 S2).
  - intros a b Ia Ib. apply in_app_iff in Ia, Ib. destruct (Nat.eq_dec a x) as [->|NA], (Nat.eq_dec b x) as [->|NB]; rewrite ?fupd_same, ?fupd_other by assumption; intros E; [reflexivity| | |].
    + destruct Ib as [Ib|[Ib|[]]]; [|congruence]. pose proof (wf_out C WC _ _ (INPRE b Ib)). lia.
    + destruct Ia as [Ia|[Ia|[]]]; [|congruence]. pose proof (wf_out C WC _ _ (INPRE a Ia)). lia.
    + destruct Ia as [Ia|[Ia|[]]]; [|congruence]. destruct Ib as [Ib|[Ib|[]]]; [|congruence]. apply (i_names _ _ _ _ _ _ _ J); assumption.
  - intros a I. apply SEQ. apply in_app_iff in I. destruct I as [I|[<-|[]]]; [apply (i_from _ _ _ _ _ _ _ J), I|exact SX].
Qed.
End Step.

(** All the arcs. *)
Lemma steps : forall post pre C m t f g z, inv pre C m t f g z -> NoDup (pre ++ post) -> (forall y, In y (pre ++ post) -> live y) -> rooted N (pre ++ post) ->
  exists C' m' f' g' z', rfold (copy_arc copy N) post (C, m) = Ok (C', m') /\ inv (pre ++ post) C' m' t f' g' z'.
Proof.
  induction post as [|x post IH]; intros pre C m t f g z J ND Lv R.
  - rewrite app_nil_r. exists C, m, f, g, z. split; [reflexivity|exact J].
  - assert (NX : ~ In x pre) by (apply NoDup_remove_2 in ND; intros I; apply ND, in_app_iff; now left).
    assert (SX : seen pre (n_from N x)) by (destruct (R pre x post eq_refl) as [H|(y & I & H)]; [now left|right; eauto]).
    assert (AP : forall y, In y pre -> live y) by (intros y I; apply Lv, in_app_iff; now left).
    assert (L : live x) by (apply Lv, in_app_iff; right; now left).
    assert (G : exists C' m' f' g' z', copy_arc copy N (C, m) x = Ok (C', m') /\ inv (pre ++ [x]) C' m' t f' g' z').
    { destruct (seen_dec pre (n_to N x)) as [S1|S1]; [eapply between_step|eapply merge_step]; eassumption. }
    destruct G as (C' & m' & f' & g' & z' & E & J'). replace (pre ++ x :: post) with ((pre ++ [x]) ++ post) in * by (rewrite <- app_assoc; reflexivity).
    destruct (IH _ _ _ _ _ _ _ J' ND Lv R) as (C2 & m2 & f2 & g2 & z2 & E2 & J2).
    exists C2, m2, f2, g2, z2. split; [|exact J2]. unfold rfold in *. cbn [fold_left rbind]. rewrite E. exact E2.
Qed.
Lemma all_steps xs : xs <> [] -> NoDup xs -> (forall y, In y xs -> live y) -> rooted N xs ->
  exists C m t f g z, rfold (copy_arc copy N) xs (net_init, []) = Ok (C, m) /\ inv xs C m t f g z.
Proof.
  intros NE ND Lv R. destruct xs as [|x xs]; [congruence|].
  assert (F : n_from N x = n_start N) by (destruct (R [] x xs eq_refl) as [H|(y & [] & _)]; exact H).
  destruct (first_step x (Lv x (or_introl eq_refl)) F) as (C & m & t & f & g & z & E & J).
  destruct (steps xs [x] C m t f g z J ND Lv R) as (C' & m' & f' & g' & z' & E' & J').
  exists C', m', t, f', g', z'. split; [|exact J']. unfold rfold in *. cbn [fold_left rbind]. rewrite E. exact E'.
Qed.
End Copy.
