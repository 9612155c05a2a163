(** From the networks to the numbers of their arcs. *)
From Coq Require Import List ZArith Arith Bool Lia.
From Verif Require Import Base Net_Model Net_Spec Net_Proofs1 Net_Proofs2 NetDp_Model NetDp_Spec NetDp_Proofs1.
Import ListNotations.
Local Open Scope res_scope.

Fixpoint index_of (y : nat) (l : list nat) : nat :=
  match l with [] => 0 | z :: r => if z =? y then 0 else S (index_of y r) end.
Lemma index_of_In : forall y l, In y l -> nth_error l (index_of y l) = Some y.
Proof.
  induction l as [|z l IH]; intros H; [destruct H|]. cbn. destruct (Nat.eqb_spec z y) as [->|Hz]; [reflexivity|].
  cbn. apply IH. destruct H; [contradiction|assumption].
Qed.
Lemma index_of_lt : forall y l, In y l -> index_of y l < length l.
Proof. intros y l H. apply nth_error_Some. rewrite index_of_In by exact H. discriminate. Qed.
Lemma index_of_unique : forall l k y, NoDup l -> nth_error l k = Some y -> index_of y l = k.
Proof.
  induction l as [|z l IH]; intros k y Hnd H; [destruct k; discriminate|]. inversion Hnd; subst. destruct k as [|k]; cbn in H.
  - injection H as ->. cbn. now rewrite Nat.eqb_refl.
  - cbn. destruct (Nat.eqb_spec z y) as [->|Hz]; [apply nth_error_In in H; contradiction|]. f_equal. now apply IH.
Qed.
Lemma find_down_spec : forall l y k, In y l -> index_of y l <= k < length l -> NoDup l -> find_down l y k = Ok (index_of y l).
Proof.
  intros l y k Hy Hk Hnd. induction k as [|k IH]; cbn [find_down]; unfold get at 1.
  - pose proof (index_of_In y l Hy) as E. replace (index_of y l) with 0 in * by lia. rewrite E. cbn. now rewrite Nat.eqb_refl.
  - destruct (nth_error l (S k)) as [z|] eqn:E; [|apply nth_error_None in E; lia]. cbn [rbind]. destruct (Nat.eqb_spec z y) as [->|Hz].
    + now rewrite (index_of_unique l (S k) y Hnd E).
    + apply IH. assert (index_of y l <> S k); [|lia]. intros Ec. rewrite <- Ec, index_of_In in E by exact Hy. congruence.
Qed.
Lemma find_id_spec : forall l y k, In y l -> index_of y l <= k <= length l -> NoDup l -> find_id l y k = Ok (index_of y l).
Proof.
  intros l y k Hy Hk Hnd. unfold find_id. pose proof (index_of_lt y l Hy). destruct (length l) as [|n] eqn:E; [lia|].
  apply find_down_spec; [exact Hy| |exact Hnd]. destruct (Nat.eqb_spec k (S n)); lia.
Qed.

(** The loops over arcs are first minima over numbers. *)
Lemma fold_pick : forall K (F : nat -> res nat) (f : nat -> Z) (g : nat -> K) ix l best, (forall y, In y l -> F y = Ok (ix y)) ->
  fold_left (fun acc y => let* best := acc in let* k := F y in Ok (better best (f k) (g k))) l (Ok best)
  = Ok (pick best (map (fun k => (f k, g k)) (map ix l))).
Proof.
  intros K F f g ix. induction l as [|y l IH]; intros best H; [reflexivity|]. cbn [fold_left rbind map]. rewrite (H y) by now left. cbn [rbind].
  rewrite IH by (intros z Hz; apply H; now right). reflexivity.
Qed.
Lemma fold_pick2 : forall K (F G : nat -> res nat) (f : nat -> nat -> Z) (g : nat -> nat -> K) ix iy la lb best,
  (forall y, In y la -> F y = Ok (ix y)) -> (forall y, In y lb -> G y = Ok (iy y)) ->
  fold_left (fun acc x => let* best := acc in let* k := F x in
    fold_left (fun acc y => let* best := acc in let* l := G y in Ok (better best (f k l) (g k l))) lb (Ok best)) la (Ok best)
  = Ok (pick best (flat_map (fun k => map (fun l => (f k l, g k l)) (map iy lb)) (map ix la))).
Proof.
  intros K F G f g ix iy la lb. induction la as [|x la IH]; intros best HF HG; [reflexivity|]. cbn [fold_left rbind map flat_map].
  rewrite (HF x) by now left. cbn [rbind]. rewrite (fold_pick K G (f (ix x)) (g (ix x)) iy) by exact HG.
  rewrite IH by (try exact HG; intros z Hz; apply HF; now right). now rewrite pick_app.
Qed.
Lemma rfold_ok : forall S I (F : S -> I -> res S) (G : S -> I -> S) l s, (forall i s, In i l -> F s i = Ok (G s i)) ->
  rfold F l s = Ok (fold_left G l s).
Proof.
  intros S I F G l. unfold rfold. induction l as [|i l IH]; intros s H; [reflexivity|]. cbn [fold_left rbind]. rewrite (H i s) by now left.
  apply IH. intros j t Hj. apply H. now right.
Qed.

(** One side: a network with a single first arc, and its arcs in order. *)
Section Side.
Context {D : Type}.
Variable A : net D.
Variables (h : nat) (xs : list nat).
Hypothesis W : wf_net A.
Hypothesis Hout : n_out A (n_start A) = [h].
Hypothesis Hnd : NoDup xs.
Hypothesis Hall : forall x, In x xs <-> exists u, In x (n_out A u).
Hypothesis Hord : arcs_ordered A xs.
Hypothesis Hfirst : exists tl, xs = h :: tl.

Definition arcat (l : list nat) (k : nat) : nat := nth k l 0.
Definition preds (k : nat) : list nat := map (fun y => index_of y xs) (n_in A (n_from A (arcat xs k))).

Lemma len_pos : 0 < length xs.
Proof. clear - Hfirst. destruct Hfirst as (tl & E). rewrite E. cbn. lia. Qed.
Lemma arcat_0 : arcat xs 0 = h.
Proof. destruct Hfirst as (tl & E). rewrite E. reflexivity. Qed.
Lemma get_ok : forall k, k < length xs -> get xs k = Ok (arcat xs k).
Proof.
  intros k H. unfold get, arcat. destruct (nth_error xs k) as [x|] eqn:E; [|apply nth_error_None in E; lia]. f_equal. symmetry.
  apply nth_error_nth. exact E.
Qed.
Lemma arcat_In : forall k, k < length xs -> In (arcat xs k) xs.
Proof. intros k H. apply nth_In. exact H. Qed.
Lemma index_arcat : forall k, k < length xs -> index_of (arcat xs k) xs = k.
Proof. intros k H. apply index_of_unique; [exact Hnd|]. apply nth_error_nth'. exact H. Qed.
Lemma arcat_index : forall y, In y xs -> arcat xs (index_of y xs) = y.
Proof. intros y H. unfold arcat. apply nth_error_nth. apply index_of_In. exact H. Qed.
Lemma arc_out : forall x, In x xs -> In x (n_out A (n_from A x)).
Proof. intros x H. apply Hall in H. destruct H as (u & H). rewrite (proj1 (wf_out A W x u H)). exact H. Qed.
Lemma in_arc : forall y v, In y (n_in A v) -> In y xs.
Proof. intros y v H. apply Hall. exists (n_from A y). apply (wf_in A W y v H). Qed.
Lemma h_first : n_from A h = n_start A.
Proof. apply (wf_out A W h). rewrite Hout. now left. Qed.

Lemma pred_lt : forall k y, k < length xs -> In y (n_in A (n_from A (arcat xs k))) -> index_of y xs < k.
Proof.
  intros k y Hk Hy. pose proof (nth_split xs 0 Hk) as (pre & post & E & El).
  assert (Hin : In y pre) by (apply (Hord pre (arcat xs k) post E); exact Hy).
  clear - E El Hin. rewrite E. apply (index_of_lt y pre) in Hin as Hlt. replace (index_of y (pre ++ nth k xs 0 :: post)) with (index_of y pre); [lia|].
  clear - Hin. induction pre as [|z pre IH]; [destruct Hin|]. cbn. destruct (Nat.eqb_spec z y); [reflexivity|]. f_equal. apply IH.
  destruct Hin; [contradiction|assumption].
Qed.
Lemma preds_ok : forall k, 0 < k < length xs -> preds k <> [] /\ forall j, In j (preds k) -> j < k.
Proof.
  intros k Hk. split.
  - pose proof (arc_out _ (arcat_In k ltac:(lia))) as Ho. set (x := arcat xs k) in *.
    assert (Hns : n_from A x <> n_start A).
    { intros E. rewrite E, Hout in Ho. destruct Ho as [Ho|[]]. rewrite <- arcat_0 in Ho. unfold x in Ho.
      assert (index_of (arcat xs 0) xs = index_of (arcat xs k) xs) by (now rewrite Ho). rewrite !index_arcat in H by lia. lia. }
    destruct (wf_reach A W x _ Ho) as (ys & Hp). destruct (exists_last (l := ys)) as (zs & z & Ez).
    { intros ->. apply npath_nil in Hp. contradiction. }
    subst ys. apply npath_split in Hp. destruct Hp as (v & _ & Hz). apply npath_one in Hz. destruct Hz as [Hz1 Hz2].
    pose proof (wf_out A W z v Hz1) as (_ & _ & _ & _ & Hz3). rewrite <- Hz2 in Hz3. unfold preds. fold x.
    destruct (n_in A (n_from A x)); [destruct Hz3|discriminate].
  - intros j Hj. apply in_map_iff in Hj. destruct Hj as (y & <- & Hy). apply pred_lt; [lia|exact Hy].
Qed.
Lemma find_pred : forall k y, k < length xs -> In y (n_in A (n_from A (arcat xs k))) -> find_id xs y k = Ok (index_of y xs).
Proof. intros k y Hk Hy. pose proof (pred_lt k y Hk Hy). apply find_id_spec; [eapply in_arc; eauto|lia|exact Hnd]. Qed.
Lemma find_last : forall v y, In y (n_in A v) -> find_id xs y (length xs) = Ok (index_of y xs).
Proof.
  intros v y Hy. apply in_arc in Hy. apply find_id_spec; [exact Hy| |exact Hnd]. pose proof (index_of_lt y xs Hy). lia.
Qed.

(** Chains of numbers are paths of arcs. *)
Lemma chain_path : forall a l, chain preds (length xs) a l -> a < length xs /\
  npath A (n_start A) (h :: map (arcat xs) l) (n_to A (arcat xs a)) /\ Forall (fun k => 0 < k < length xs) l.
Proof.
  intros a l H. induction H as [|k a l H (IH1 & IH2 & IH3) Ha Hk].
  - split; [exact len_pos|]. split; [|constructor]. rewrite arcat_0. apply npath_one. rewrite Hout. split; [now left|reflexivity].
  - split; [lia|]. split; [|apply Forall_app; split; [exact IH3|repeat constructor; lia]].
    apply in_map_iff in Hk. destruct Hk as (y & <- & Hy). pose proof (in_arc _ _ Hy) as Hyx. rewrite arcat_index in IH2 by exact Hyx.
    rewrite map_app, app_comm_cons. apply (npath_app A _ _ (n_to A y)); [exact IH2|].
    rewrite (proj1 (wf_in A W y _ Hy)). cbn [map]. apply npath_one. split; [apply arc_out, arcat_In; lia|reflexivity].
Qed.
Lemma path_chain : forall zs v, npath A (n_start A) (h :: zs) v -> exists a, chain preds (length xs) a (map (fun z => index_of z xs) zs) /\
  In (arcat xs a) (n_in A v) /\ (forall z, In z zs -> In z xs).
Proof.
  induction zs as [|z zs IH] using rev_ind; intros v H.
  - exists 0. split; [constructor|]. rewrite arcat_0. apply npath_one in H. destruct H as [H1 ->]. split; [|intros z []].
    apply (wf_out A W h _ H1).
  - rewrite app_comm_cons in H. apply npath_split in H. destruct H as (u & H1 & H2). apply npath_one in H2. destruct H2 as [Hz ->].
    destruct (IH u H1) as (k & Hc & Hk & Hin). assert (Hzx : In z xs) by (apply Hall; eauto).
    exists (index_of z xs). pose proof (wf_out A W z u Hz) as (Ez & _ & _ & _ & Hzi). split; [|split].
    + rewrite map_app. cbn [map]. apply (ch_snoc _ _ k); [exact Hc| |].
      * split; [|apply index_of_lt; exact Hzx].
        destruct (index_of z xs) eqn:E; [|lia]. exfalso. pose proof (arcat_index z Hzx) as E2. rewrite E, arcat_0 in E2. subst z.
        rewrite h_first in Ez. rewrite <- Ez in Hk. rewrite (proj2 (wf_start A W)) in Hk. destruct Hk.
      * unfold preds. rewrite arcat_index by exact Hzx. rewrite Ez. apply in_map_iff. exists (arcat xs k). split; [|exact Hk].
        apply index_arcat. destruct (chain_path k _ Hc) as [Hlt _]. exact Hlt.
    + rewrite arcat_index by exact Hzx. exact Hzi.
    + intros y Hy. apply in_app_or in Hy. destruct Hy as [Hy|[<-|[]]]; auto.
Qed.
End Side.
