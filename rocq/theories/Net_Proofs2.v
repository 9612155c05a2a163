(** Traversals of a network. *)
From Coq Require Import List ZArith Arith Bool Lia Permutation.
From Verif Require Import Base Net_Model Net_Spec Net_Proofs1.
Import ListNotations.
Local Open Scope res_scope.

Lemma bounded_length : forall (l : list nat) n, NoDup l -> (forall x, In x l -> x < n) -> length l <= n.
Proof.
  intros l n H Hb. rewrite <- (seq_length n 0). apply NoDup_incl_length; [exact H|].
  intros x Hx. apply in_seq. specialize (Hb x Hx). lia.
Qed.

Lemma NoDup_app_intro : forall A (l1 l2 : list A), NoDup l1 -> NoDup l2 -> (forall x, In x l1 -> ~ In x l2) -> NoDup (l1 ++ l2).
Proof.
  intros A l1 l2 H1 H2 H. induction H1 as [|x l Hx H1 IH]; [exact H2|]. cbn. constructor.
  - intros Hc. apply in_app_or in Hc. destruct Hc as [Hc|Hc]; [contradiction|]. apply (H x); [now left|exact Hc].
  - apply IH. intros y Hy. apply H. now right.
Qed.
Lemma NoDup_app_l : forall A (l1 l2 : list A), NoDup (l1 ++ l2) -> NoDup l1.
Proof.
  intros A l1 l2. induction l1 as [|x l IH]; intros H; [constructor|]. inversion H; subst. constructor; [|auto].
  intros Hx. apply H2, in_or_app. now left.
Qed.
Lemma Permutation_in_iff : forall (v : nat) l l', Permutation l l' -> (In v l <-> In v l').
Proof. intros v l l' H. split; [apply Permutation_in; exact H|apply Permutation_in, Permutation_sym; exact H]. Qed.
(** An element that is not in the first list lies in the second one. *)
Lemma split_prefix : forall (a b pre : list nat) x post, a ++ b = pre ++ x :: post -> ~ In x a -> exists m, pre = a ++ m.
Proof.
  induction a as [|y a IH]; intros b pre x post E H; [exists pre; reflexivity|]. destruct pre as [|z pre]; cbn in E; injection E as -> E.
  - destruct H. now left.
  - destruct (IH b pre x post E) as (m & ->); [intros Hc; apply H; now right|]. exists m. reflexivity.
Qed.
Lemma split_suffix : forall (a b pre : list nat) x post, a ++ b = pre ++ x :: post -> ~ In x b -> exists m, a = pre ++ x :: m.
Proof.
  induction a as [|y a IH]; intros b pre x post E H; cbn in E.
  - destruct H. rewrite E. apply in_or_app. right. now left.
  - destruct pre as [|z pre]; cbn in E; injection E as -> E; [exists a; reflexivity|].
    destruct (IH b pre x post E H) as (m & ->). exists m. reflexivity.
Qed.

Section Net.
Context {D : Type}.
Variable N : net D.
Hypothesis W : wf_net N.

Lemma reachable_step : forall u x, reachable N u -> In x (n_out N u) -> reachable N (n_to N x).
Proof.
  intros u x (xs & H) Hx. exists (xs ++ [x]). apply (npath_app N _ xs u); [exact H|]. apply npath_one. auto.
Qed.
Lemma reachable_bound : forall u, reachable N u -> u < n_nodes N.
Proof. intros u (xs & H). apply (npath_bound N _ xs u W H). apply (wf_start N W). Qed.
Lemma reachable_start : reachable N (n_start N).
Proof. exists []. constructor. Qed.
Lemma reachable_ind : forall P : nat -> Prop, P (n_start N) ->
  (forall u x, P u -> In x (n_out N u) -> P (n_to N x)) -> forall u, reachable N u -> P u.
Proof.
  intros P H0 Hs u (xs & H). revert H0. induction H as [|u x xs v Hx Hp IH]; intros H0; [exact H0|]. apply IH. eapply Hs; eauto.
Qed.

(** ** Depth and breadth *)
Lemma push_plain : forall m xs fringe cnt seen fr c se, m <> Inorder ->
  push_all m N xs fringe cnt seen = (fr, c, se) ->
  exists new, NoDup new /\ (forall v, In v new -> ~ In v seen) /\
    (forall v, In v se <-> In v seen \/ In v new) /\
    Permutation fr (fringe ++ new) /\
    (forall v, In v new -> exists x, In x xs /\ v = n_to N x) /\
    (forall x, In x xs -> In (n_to N x) se).
Proof.
  intros m xs. induction xs as [|x r IH]; intros fringe cnt seen fr c se Hm H; cbn [push_all] in H.
  - injection H as <- <- <-. exists []. split; [constructor|]. split; [intros v []|]. split; [intros v; cbn; tauto|].
    split; [rewrite app_nil_r; apply Permutation_refl|]. split; [intros v []|intros x []].
  - assert (E : (match m with Inorder => (0 <? (match m with Inorder => fupd cnt (n_to N x) (cnt (n_to N x) - 1)%Z | _ => cnt end) (n_to N x))%Z | _ => false end) = false)
      by (destruct m; congruence).
    rewrite E in H. destruct (mem (n_to N x) seen) eqn:Em.
    + destruct (IH _ _ _ _ _ _ Hm H) as (new & H1 & H2 & H3 & H4 & H5 & H6). exists new.
      split; [exact H1|]. split; [exact H2|]. split; [exact H3|]. split; [exact H4|]. split.
      * intros v Hv. destruct (H5 v Hv) as (y & Hy & Ey). exists y. split; [now right|exact Ey].
      * intros y [<-|Hy]; [apply H3; left; now apply mem_In|auto].
    + apply mem_false in Em. destruct (IH _ _ _ _ _ _ Hm H) as (new & H1 & H2 & H3 & H4 & H5 & H6). exists (n_to N x :: new).
      split; [constructor; [intros Hn; apply (H2 _ Hn); now left|exact H1]|].
      split; [intros v [<-|Hv]; [exact Em|intros Hs; apply (H2 v Hv); now right]|].
      split; [intros v; rewrite H3; cbn; tauto|]. split.
      * rewrite H4. destruct m; [|rewrite <- app_assoc; apply Permutation_refl|congruence].
        cbn. apply Permutation_middle.
      * split; [intros v [<-|Hv]; [exists x; split; [now left|reflexivity]|destruct (H5 v Hv) as (y & Hy & Ey); exists y; split; [now right|exact Ey]]|].
        intros y [<-|Hy]; [apply H3; left; now left|auto].
Qed.

Lemma trav_plain : forall m fuel fringe cnt seen done, m <> Inorder ->
  NoDup (done ++ fringe) -> (forall v, In v seen <-> In v (done ++ fringe)) ->
  (forall v, In v seen -> reachable N v) ->
  (forall u x, In u done -> In x (n_out N u) -> In (n_to N x) seen) ->
  n_nodes N < fuel + length done ->
  exists rest, trav m fuel N fringe cnt seen = Ok rest /\ NoDup (done ++ rest) /\
    (forall v, In v (done ++ rest) -> reachable N v) /\ incl fringe rest /\
    (forall u x, In u (done ++ rest) -> In x (n_out N u) -> In (n_to N x) (done ++ rest)).
Proof.
  intros m. induction fuel as [|fuel IH]; intros fringe cnt seen done Hm Hnd Hseen Hre Hcl Hf.
  - exfalso. assert (length (done ++ fringe) <= n_nodes N).
    { apply bounded_length; [exact Hnd|]. intros x Hx. apply reachable_bound. apply Hre. apply Hseen. exact Hx. }
    rewrite app_length in H. lia.
  - destruct fringe as [|u r]; cbn [trav].
    + exists []. rewrite app_nil_r in *. split; [reflexivity|]. split; [exact Hnd|]. split; [intros v Hv; apply Hre, Hseen, Hv|].
      split; [intros v []|]. intros v x Hv Hx. apply Hseen. eapply Hcl; eauto.
    + destruct (push_all m N (n_out N u) r cnt seen) as [[fr c] se] eqn:E.
      destruct (push_plain m (n_out N u) r cnt seen fr c se Hm E) as (new & H1 & H2 & H3 & H4 & H5 & H6).
      assert (Hu : reachable N u) by (apply Hre, Hseen, in_or_app; right; now left).
      destruct (IH fr c se (done ++ [u]) Hm) as (rest & R1 & R2 & R3 & R4 & R5).
      * apply (Permutation_NoDup (l := (done ++ u :: r) ++ new)).
        -- rewrite H4. rewrite <- !app_assoc. apply Permutation_app_head. cbn. apply Permutation_refl.
        -- apply NoDup_app_intro; [exact Hnd|exact H1|]. intros v Hv Hn. apply (H2 v Hn). apply Hseen. exact Hv.
      * intros v. rewrite H3, Hseen, !in_app_iff. rewrite (Permutation_in_iff v _ _ H4), in_app_iff. cbn. tauto.
      * intros v Hv. apply H3 in Hv. destruct Hv as [Hv|Hv]; [auto|]. destruct (H5 v Hv) as (x & Hx & ->).
        apply (reachable_step u); assumption.
      * intros w x Hw Hx. apply in_app_or in Hw. destruct Hw as [Hw|[<-|[]]]; [apply H3; left; eapply Hcl; eauto|auto].
      * rewrite app_length. cbn. lia.
      * rewrite R1. cbn [rbind]. exists (u :: rest). rewrite <- app_assoc in R2, R3, R5. cbn in R2, R3, R5.
        split; [reflexivity|]. split; [exact R2|]. split; [exact R3|]. split; [|exact R5].
        intros v [<-|Hv]; [now left|]. right. apply R4. apply (Permutation_in_iff v _ _ H4). apply in_or_app. now left.
Qed.

Lemma traverse_plain : forall m fuel, m <> Inorder -> n_nodes N < fuel ->
  exists ns, trav m fuel N [n_start N] (fun _ => 0%Z) [n_start N] = Ok ns /\ NoDup ns /\ forall v, In v ns <-> reachable N v.
Proof.
  intros m fuel Hm Hf.
  destruct (trav_plain m fuel [n_start N] (fun _ => 0%Z) [n_start N] [] Hm) as (ns & H1 & H2 & H3 & H4 & H5).
  - cbn. repeat constructor; auto.
  - intros v. cbn. tauto.
  - intros v [<-|[]]. apply reachable_start.
  - intros u x [].
  - cbn. lia.
  - exists ns. split; [exact H1|]. split; [exact H2|]. intros v. split; [apply H3|].
    intros Hv. revert v Hv. apply reachable_ind; [apply H4; now left|]. intros u x Hu Hx. apply (H5 u x Hu Hx).
Qed.

(** ** Inorder *)
(** [P] is the list of arcs whose ends have been looked at. *)
Definition left_in (P : list nat) (v : nat) : list nat := filter (fun x => negb (mem x P)) (n_in N v).
Definition kahn (P : list nat) (cnt : nat -> Z) (seen : list nat) : Prop :=
  (forall v, reachable N v -> cnt v = Z.of_nat (length (left_in P v))) /\
  (forall v, reachable N v -> (In v seen <-> v = n_start N \/ (n_in N v <> [] /\ incl (n_in N v) P))).

Lemma left_in_nil : forall P v, left_in P v = [] <-> incl (n_in N v) P.
Proof.
  intros P v. unfold left_in. split.
  - intros H x Hx. destruct (mem x P) eqn:E; [now apply mem_In|]. exfalso.
    assert (In x (filter (fun x => negb (mem x P)) (n_in N v))) by (apply filter_In; rewrite E; auto). rewrite H in H0. destruct H0.
  - intros H. induction (n_in N v) as [|x l IH]; [reflexivity|]. cbn.
    assert (E : mem x P = true) by (apply mem_In, H; now left). rewrite E. apply IH. intros y Hy. apply H. now right.
Qed.
Lemma left_in_step : forall P x v, NoDup (n_in N v) -> ~ In x P ->
  length (left_in (P ++ [x]) v) = length (left_in P v) - (if mem x (n_in N v) then 1 else 0) /\
  (In x (n_in N v) -> 1 <= length (left_in P v)).
Proof.
  intros P x v Hnd Hx. unfold left_in. induction (n_in N v) as [|y l IH]; [cbn; split; [reflexivity|intros []]|].
  inversion Hnd as [|? ? Hy Hnd']; subst. destruct (IH Hnd') as [IH1 IH2]. cbn [filter].
  assert (E : mem y (P ++ [x]) = (mem y P || (y =? x))%bool).
  { unfold mem. rewrite existsb_app. cbn. rewrite orb_false_r. reflexivity. }
  rewrite E. assert (Ex : mem x (y :: l) = ((x =? y) || mem x l)%bool) by reflexivity. rewrite Ex.
  destruct (Nat.eqb_spec y x) as [->|Hyx].
  - rewrite Nat.eqb_refl. assert (Em : mem x P = false) by now apply mem_false. rewrite Em. cbn [negb orb length].
    assert (El : mem x l = false) by now apply mem_false. rewrite El in IH1. rewrite IH1. split; [lia|]. intros _. lia.
  - destruct (Nat.eqb_spec x y); [congruence|]. rewrite orb_false_r. cbn [orb]. destruct (mem y P); cbn [negb length].
    + split; [exact IH1|]. intros [Hc|Hc]; [congruence|auto].
    + destruct (mem x l) eqn:El; [|split; [lia|intros; lia]].
      apply mem_In in El. specialize (IH2 El). split; [lia|intros; lia].
Qed.

Lemma push_inorder : forall xs fringe cnt seen fr c se P u, reachable N u -> incl xs (n_out N u) -> NoDup (P ++ xs) ->
  kahn P cnt seen ->
  push_all Inorder N xs fringe cnt seen = (fr, c, se) ->
  exists new, NoDup new /\ (forall v, In v new -> ~ In v seen) /\
    (forall v, In v se <-> In v seen \/ In v new) /\ fr = fringe ++ new /\
    (forall v, In v new -> reachable N v) /\ kahn (P ++ xs) c se.
Proof.
  intros xs. induction xs as [|x r IH]; intros fringe cnt seen fr c se P u Hu Hin Hnd [K1 K2] H; cbn [push_all] in H.
  - injection H as <- <- <-. exists []. rewrite !app_nil_r. split; [constructor|]. split; [intros v []|]. split; [intros v; cbn; tauto|].
    split; [reflexivity|]. split; [intros v []|]. split; assumption.
  - set (v := n_to N x) in *. assert (Hxo : In x (n_out N u)) by (apply Hin; now left).
    assert (Hv : reachable N v) by (apply (reachable_step u); assumption).
    assert (Hxi : In x (n_in N v)) by apply (wf_out N W x u Hxo).
    assert (HxP : ~ In x P) by (intros Hc; apply NoDup_remove_2 in Hnd; apply Hnd, in_or_app; now left).
    assert (Hvs : v <> n_start N) by apply (no_entry N x u W Hxo).
    assert (HcntX : forall w, reachable N w -> fupd cnt v (cnt v - 1)%Z w = Z.of_nat (length (left_in (P ++ [x]) w))).
    { intros w Hw. destruct (left_in_step P x w (wf_nd_in N W w) HxP) as [L1 L2]. rewrite L1.
      destruct (Nat.eq_dec w v) as [->|Hwv].
      - rewrite fupd_same, (K1 v Hv). specialize (L2 Hxi). assert (E : mem x (n_in N v) = true) by now apply mem_In. rewrite E. lia.
      - rewrite fupd_other by exact Hwv. rewrite (K1 w Hw).
        assert (E : mem x (n_in N w) = false). { apply mem_false. intros Hc. apply (wf_in N W) in Hc. unfold v in Hwv. destruct Hc. congruence. }
        rewrite E. f_equal. lia. }
    assert (Hother : forall w, reachable N w -> w <> v -> (incl (n_in N w) (P ++ [x]) <-> incl (n_in N w) P)).
    { intros w Hw Hwv. split; intros Hi y Hy; [|apply in_or_app; left; auto]. specialize (Hi y Hy). apply in_app_or in Hi.
      destruct Hi as [Hi|[<-|[]]]; [exact Hi|]. exfalso. apply (wf_in N W) in Hy. unfold v in Hwv. destruct Hy. congruence. }
    assert (Hvseen : ~ In v seen).
    { intros Hc. apply (K2 v Hv) in Hc. destruct Hc as [Hc|[_ Hc]]; [contradiction|]. apply HxP, Hc, Hxi. }
    pose proof (HcntX v Hv) as Hcv. rewrite Hcv in H.
    assert (Hnd2 : NoDup ((P ++ [x]) ++ r)) by (rewrite <- app_assoc; exact Hnd).
    assert (Hin2 : incl r (n_out N u)) by (intros y Hy; apply Hin; now right).
    destruct (Z.ltb_spec 0 (Z.of_nat (length (left_in (P ++ [x]) v)))) as [Hlt|Hge].
    + destruct (fun K => IH _ _ _ _ _ _ (P ++ [x]) u Hu Hin2 Hnd2 K H) as (new & H1 & H2 & H3 & H4 & H5 & H6).
      { split; [exact HcntX|]. intros w Hw. rewrite (K2 w Hw). destruct (Nat.eq_dec w v) as [->|Hwv]; [|rewrite (Hother w Hw Hwv); reflexivity].
        split; intros [Hc|[Hc1 Hc2]]; try (now left); exfalso.
        - apply HxP, Hc2, Hxi.
        - apply left_in_nil in Hc2. rewrite Hc2 in Hlt. cbn in Hlt. lia. }
      exists new. rewrite <- app_assoc in H6. auto 10.
    + assert (Hall : incl (n_in N v) (P ++ [x])). { apply left_in_nil. destruct (left_in (P ++ [x]) v); [reflexivity|cbn in Hge; lia]. }
      assert (Em : mem v seen = false) by now apply mem_false. rewrite Em in H.
      destruct (fun K => IH _ _ _ _ _ _ (P ++ [x]) u Hu Hin2 Hnd2 K H) as (new & H1 & H2 & H3 & H4 & H5 & H6).
      { split; [exact HcntX|]. intros w Hw. cbn. rewrite (K2 w Hw). destruct (Nat.eq_dec w v) as [->|Hwv].
        - split; [intros _; right; split; [intros E; rewrite E in Hxi; destruct Hxi|exact Hall]|intros _; now left].
        - rewrite (Hother w Hw Hwv). split; [intros [Hc|Hc]; [congruence|exact Hc]|auto]. }
      exists (v :: new). split; [constructor; [intros Hn; apply (H2 _ Hn); now left|exact H1]|].
      split; [intros w [<-|Hw]; [exact Hvseen|intros Hs; apply (H2 w Hw); now right]|].
      split; [intros w; rewrite H3; cbn; tauto|]. split; [rewrite H4, <- app_assoc; reflexivity|].
      split; [intros w [<-|Hw]; auto|]. rewrite <- app_assoc in H6. exact H6.
Qed.

(** Every arc comes after the arcs that enter its first node. *)
Definition arcs_ordered (l : list nat) : Prop :=
  forall pre x post, l = pre ++ x :: post -> incl (n_in N (n_from N x)) pre.

Lemma flat_out_nodup : forall l, NoDup l -> NoDup (flat_map (n_out N) l).
Proof.
  intros l H. induction H as [|u l Hu H IH]; [constructor|]. cbn. apply NoDup_app_intro; [apply (wf_nd_out N W)|exact IH|].
  intros x Hx Hf. apply in_flat_map in Hf. destruct Hf as (w & Hw & Hxw).
  destruct (wf_out N W x u Hx) as (E1 & _). destruct (wf_out N W x w Hxw) as (E2 & _). apply Hu. congruence.
Qed.

Lemma trav_inorder : forall fuel fringe cnt seen done,
  NoDup (done ++ fringe) -> (forall v, In v seen <-> In v (done ++ fringe)) ->
  (forall v, In v seen -> reachable N v) ->
  kahn (flat_map (n_out N) done) cnt seen -> arcs_ordered (flat_map (n_out N) done) ->
  n_nodes N < fuel + length done ->
  exists rest cnt', trav Inorder fuel N fringe cnt seen = Ok rest /\ NoDup (done ++ rest) /\
    (forall v, In v (done ++ rest) -> reachable N v) /\ incl fringe rest /\ (exists tl, rest = fringe ++ tl) /\
    arcs_ordered (flat_map (n_out N) (done ++ rest)) /\
    kahn (flat_map (n_out N) (done ++ rest)) cnt' (done ++ rest).
Proof.
  induction fuel as [|fuel IH]; intros fringe cnt seen done Hnd Hseen Hre HK Hord Hf.
  - exfalso. assert (length (done ++ fringe) <= n_nodes N).
    { apply bounded_length; [exact Hnd|]. intros x Hx. apply reachable_bound. apply Hre. apply Hseen. exact Hx. }
    rewrite app_length in H. lia.
  - destruct fringe as [|u r]; cbn [trav].
    + exists [], cnt. rewrite app_nil_r in *. split; [reflexivity|]. split; [exact Hnd|]. split; [intros v Hv; apply Hre, Hseen, Hv|].
      split; [intros v []|]. split; [exists []; reflexivity|]. split; [exact Hord|]. destruct HK as [K1 K2]. split; [exact K1|].
      intros v Hv. rewrite <- Hseen. auto.
    + destruct (push_all Inorder N (n_out N u) r cnt seen) as [[fr c] se] eqn:E.
      assert (Hus : In u seen) by (apply Hseen, in_or_app; right; now left).
      assert (Hu : reachable N u) by auto.
      assert (Hnd1 : NoDup (done ++ [u])).
      { apply (NoDup_app_l _ (done ++ [u]) r). rewrite <- app_assoc. exact Hnd. }
      assert (Hfm : flat_map (n_out N) (done ++ [u]) = flat_map (n_out N) done ++ n_out N u).
      { rewrite flat_map_app. cbn. rewrite app_nil_r. reflexivity. }
      destruct (push_inorder (n_out N u) r cnt seen fr c se (flat_map (n_out N) done) u Hu) as (new & H1 & H2 & H3 & H4 & H5 & H6).
      { intros x Hx. exact Hx. } { rewrite <- Hfm. apply flat_out_nodup. exact Hnd1. } { exact HK. } { exact E. }
      assert (Hin_u : incl (n_in N u) (flat_map (n_out N) done)).
      { apply (proj2 HK u Hu) in Hus. destruct Hus as [->|[_ Hi]]; [|exact Hi].
        rewrite (proj2 (wf_start N W)). intros x []. }
      destruct (IH fr c se (done ++ [u])) as (rest & cnt' & R1 & R2 & R3 & R4 & (tl & R5) & R6 & R7).
      * rewrite H4. assert (G : NoDup ((done ++ u :: r) ++ new)).
        { apply NoDup_app_intro; [exact Hnd|exact H1|]. intros v Hv Hn. apply (H2 v Hn). apply Hseen. exact Hv. }
        rewrite <- !app_assoc in G. rewrite <- app_assoc. exact G.
      * intros v. rewrite H3, Hseen, H4, !in_app_iff. cbn. tauto.
      * intros v Hv. apply H3 in Hv. destruct Hv as [Hv|Hv]; auto.
      * rewrite Hfm. exact H6.
      * rewrite Hfm. intros pre x post Ep.
        destruct (in_dec Nat.eq_dec x (n_out N u)) as [Hx|Hx].
        -- rewrite (proj1 (wf_out N W x u Hx)). intros y Hy. apply Hin_u in Hy.
           (* the arcs out before those of u are a prefix of pre *)
           assert (Hsp : exists m, pre = flat_map (n_out N) done ++ m).
           { apply (split_prefix (flat_map (n_out N) done) (n_out N u) pre x post Ep).
             intros Hc. apply in_flat_map in Hc. destruct Hc as (w & Hw & Hxw).
             destruct (wf_out N W x u Hx) as (E1 & _). destruct (wf_out N W x w Hxw) as (E2 & _).
             apply NoDup_remove_2 in Hnd1. apply Hnd1. rewrite app_nil_r. congruence. }
           destruct Hsp as (m & ->). apply in_or_app. now left.
        -- destruct (split_suffix (flat_map (n_out N) done) (n_out N u) pre x post Ep Hx) as (m & Hm).
           apply (Hord pre x m Hm).
      * rewrite app_length. cbn. lia.
      * rewrite R1. cbn [rbind]. exists (u :: rest), cnt'. rewrite <- app_assoc in R2, R3, R6, R7. cbn in R2, R3, R6, R7.
        split; [reflexivity|]. split; [exact R2|]. split; [exact R3|]. split; [|split; [|split; [exact R6|exact R7]]].
        -- intros v [<-|Hv]; [now left|]. right. apply R4. rewrite H4. apply in_or_app. now left.
        -- exists (new ++ tl). cbn. rewrite R5, H4, <- app_assoc. reflexivity.
Qed.

Theorem traverse_inorder : forall fuel, n_nodes N < fuel ->
  exists ns, traverse_nodes Inorder fuel N = Ok ns /\ NoDup ns /\ (forall v, In v ns <-> reachable N v) /\
    (exists tl, ns = n_start N :: tl) /\ arcs_ordered (flat_map (n_out N) ns).
Proof.
  intros fuel Hf. unfold traverse_nodes.
  destruct (traverse_plain Depth fuel ltac:(discriminate) Hf) as (ds & H1 & H2 & H3). rewrite H1. cbn [rbind].
  destruct (trav_inorder fuel [n_start N] (fun v => if mem v ds then Z.of_nat (length (n_in N v)) else 0%Z) [n_start N] [])
    as (ns & cnt' & R1 & R2 & R3 & R4 & (tl & R5) & R6 & R7).
  - cbn. repeat constructor; auto.
  - intros v. cbn. tauto.
  - intros v [<-|[]]. apply reachable_start.
  - cbn. split.
    + intros v Hv. assert (E : mem v ds = true) by (apply mem_In, H3, Hv). rewrite E. unfold left_in. f_equal. f_equal.
      cbn. clear. induction (n_in N v) as [|x l IH]; [reflexivity|]. cbn. f_equal. exact IH.
    + intros v Hv. cbn. split; [intros [<-|[]]; now left|]. intros [->|[Hn Hi]]; [now left|].
      destruct (n_in N v) as [|x l]; [congruence|]. destruct (Hi x); now left.
  - intros pre x post E. destruct pre; discriminate.
  - cbn. lia.
  - cbn in R2, R3, R6, R7. exists ns. split; [exact R1|]. split; [exact R2|]. split; [|split; [exists tl; exact R5|exact R6]].
    intros v. split; [apply R3|]. intros Hv. destruct (wf_rank N W) as (r & Hr).
    assert (G : forall n v, r v < n -> reachable N v -> In v ns).
    { clear v Hv. induction n as [|n IHn]; intros v Hn Hv; [lia|]. apply (proj2 R7 v Hv).
      destruct (Nat.eq_dec v (n_start N)) as [->|Hvs]; [now left|]. right. split.
      - destruct Hv as (xs & Hp). destruct (exists_last (l := xs)) as (ys & y & E).
        { intros ->. apply npath_nil in Hp. contradiction. }
        subst xs. apply npath_split in Hp. destruct Hp as (w & _ & Hy). apply npath_one in Hy. destruct Hy as [Hy ->].
        intros E. destruct (wf_out N W y w Hy) as (_ & _ & _ & _ & Hi). rewrite E in Hi. destruct Hi.
      - intros x Hx. destruct (wf_in N W x v Hx) as (E1 & E2). apply in_flat_map. exists (n_from N x). split; [|exact E2].
        apply IHn; [specialize (Hr x _ E2); rewrite E1 in Hr; lia|]. apply (wf_reach N W x _ E2). }
    apply (G (S (r v))); [lia|exact Hv].
Qed.

Theorem traverse_arcs_inorder : forall fuel, n_nodes N < fuel ->
  exists l, traverse_arcs Inorder fuel N = Ok l /\ NoDup l /\ (forall x, In x l <-> exists u, In x (n_out N u)) /\
    arcs_ordered l /\ exists tl, l = n_out N (n_start N) ++ tl.
Proof.
  intros fuel Hf. destruct (traverse_inorder fuel Hf) as (ns & H1 & H2 & H3 & (tl & H4) & H5).
  exists (flat_map (n_out N) ns). unfold traverse_arcs. rewrite H1. cbn [rbind]. split; [reflexivity|].
  split; [apply flat_out_nodup; exact H2|]. split; [|split; [exact H5|subst ns; cbn; eauto]].
  intros x. rewrite in_flat_map. split; [intros (u & _ & Hx); eauto|]. intros (u & Hx). exists u. split; [|exact Hx].
  apply H3. apply (wf_reach N W x u Hx).
Qed.
Theorem traverse_arcs_plain : forall m fuel, m <> Inorder -> n_nodes N < fuel ->
  exists l, traverse_arcs m fuel N = Ok l /\ NoDup l /\ (forall x, In x l <-> exists u, In x (n_out N u)).
Proof.
  intros m fuel Hm Hf. destruct (traverse_plain m fuel Hm Hf) as (ns & H1 & H2 & H3).
  exists (flat_map (n_out N) ns). unfold traverse_arcs, traverse_nodes.
  assert (E : (let* cnt := match m with Inorder => let* ns := trav Depth fuel N [n_start N] (fun _ => 0%Z) [n_start N] in
        Ok (fun v => if mem v ns then Z.of_nat (length (n_in N v)) else 0%Z) | _ => Ok (fun _ => 0%Z) end in
        trav m fuel N [n_start N] cnt [n_start N]) = Ok ns) by (destruct m; [exact H1|exact H1|congruence]).
  rewrite E. cbn [rbind]. split; [reflexivity|]. split; [apply flat_out_nodup; exact H2|].
  intros x. rewrite in_flat_map. split; [intros (u & _ & Hx); eauto|]. intros (u & Hx). exists u. split; [|exact Hx].
  apply H3. apply (wf_reach N W x u Hx).
Qed.
End Net.
