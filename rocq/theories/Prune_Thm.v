From Coq Require Import List ZArith Arith Bool Lia.
From Verif Require Import Base Matrix_Model Graph_Model Graph_Spec Graph_Proofs1 Graph_Proofs2
  Graph_Proofs5 Graph_Example Prune_Spec Prune_Proofs.
Import ListNotations.
Open Scope res_scope.

Lemma cand_unpruned : forall g c p, cand g c p <-> cand (unpruned g) c p.
Proof.
  intros g c p. split; intros H; destruct H; (eapply cand1 || eapply cand2); simpl in *; eassumption.
Qed.

Lemma wf_unpruned : forall g, wf_graph g -> wf_graph (unpruned g).
Proof. intros g H. exact H. Qed.

Lemma tok_of_pidx : forall g c i d k x, nth_error (g_dims g) i = Some d -> nth_error c i = Some k ->
  pidx (g_env g) d k x -> exists t, tok_at g c i = Some t.
Proof.
  intros g c i d k x Hd Hk (t & Ht & _). exists t. unfold tok_at. rewrite Hd, Hk.
  rewrite (proj2 (vec_at_tokd d k t (tokd_le d k t Ht)) Ht). reflexivity.
Qed.

(** C52: at every coordinate the search visits, the moves it may take back are those of the
    search without pruning except the far ones, and nothing else. *)
Theorem C52_pruning_exact : forall g c, wf_graph g -> reached g c ->
  exists l l0, previous_coordinates g c = Ok l /\ previous_coordinates (unpruned g) c = Ok l0 /\
    forall p, In p l <-> In p l0 /\ ~ far_move g c p.
Proof.
  intros g c Hwf Hr. pose proof (reached_valid g c Hwf Hr) as Hv.
  destruct (previous_coordinates_spec g Hwf c Hv) as (l & E & Hl).
  destruct (previous_coordinates_spec (unpruned g) (wf_unpruned g Hwf) c Hv) as (l0 & E0 & Hl0).
  exists l, l0. split; [exact E|]. split; [exact E0|].
  intros p. rewrite Hl, Hl0. unfold step.
  assert (H0 : validate (unpruned g) c p = Ok true) by reflexivity.
  rewrite <- cand_unpruned.
  assert (HV : cand g c p -> (validate g c p = Ok true <-> ~ far_move g c p)).
  { intros Hc. destruct (cand_changed g Hwf c p Hc) as [(i & d & k & x & Hd & Hk & Hp & _ & Ech)|
      (i & j & d & k & x & d' & k' & y & _ & _ & Hd & Hk & Hp & Hd' & Hk' & Hp' & _ & Ech)].
    - destruct (tok_of_pidx g c i d k x Hd Hk Hp) as [t Ht].
      destruct (validate_single g c p i t Ech Ht) as (b & -> & Hb).
      split.
      + intros H. injection H as ->. intros [(i' & t' & E1 & E2 & E3)|(i' & j' & h & r & E1 & _)]; [|congruence].
        rewrite Ech in E1. injection E1 as <-. rewrite Ht in E2. injection E2 as <-. apply Hb in E3. discriminate.
      + intros H. destruct b; [reflexivity|]. exfalso. apply H. left. exists i, t. repeat split; auto; apply Hb; reflexivity.
    - destruct (tok_of_pidx g c i d k x Hd Hk Hp) as [t Ht].
      destruct (tok_of_pidx g c j d' k' y Hd' Hk' Hp') as [t' Ht'].
      destruct (validate_pair g c p j i t' t Ech Ht' Ht) as (b & -> & Hb).
      split.
      + intros H. injection H as ->. intros [(i' & t2 & E1 & E2 & E3)|(i' & j' & h & r & E1 & E2 & E3 & E4)]; [congruence|].
        rewrite Ech in E1. injection E1 as <- <-. rewrite Ht' in E2. rewrite Ht in E3.
        injection E2 as <-. injection E3 as <-. apply Hb in E4. discriminate.
      + intros H. destruct b; [reflexivity|]. exfalso. apply H. right. exists j, i, t', t.
        repeat split; auto; apply Hb; reflexivity. }
  tauto.
Qed.
Print Assumptions C52_pruning_exact.

(** C53: among the predecessors of least total cost, the back-trace takes one that aligns two
    words whenever there is one. *)
Theorem C53_tie_prefers_pairing : forall g m cur l p m',
  is_ending cur = false ->
  previous_coordinates g cur = Ok l -> l <> [] ->
  (forall q, In q l -> exists w, priced g m cur q w /\ (0 <= w)%Z) ->
  best_prev array_store g cur m = Ok (p, m') ->
  exists b bw, p = Some b /\ In b l /\ priced g m cur b bw /\
    forall q w, In q l -> priced g m cur q w ->
      (bw <= w)%Z /\ (w = bw -> 2 <= length (changed cur q) -> 2 <= length (changed cur b)).
Proof.
  intros g m cur l p m' He Hl Hne Hall H. unfold best_prev in H. rewrite He, Hl in H. cbn [rbind] in H.
  destruct (tie_loop g m cur l [] (-1)%Z None false p m' Hall ltac:(left; auto) H)
    as (_ & [(_ & H0)|H0]); [contradiction|exact H0].
Qed.
Print Assumptions C53_tie_prefers_pairing.

(** In the example group some moves are far, some are not, and a tie occurs. *)
Example C52_case :
  wf_graph (ex_graph true) /\ reached (ex_graph true) [2; 1; 4] /\
  previous_coordinates (ex_graph true) [2; 1; 4] = Ok [[2; 0; 4]; [1; 1; 4]; [2; 1; 2]; [2; 1; 3]] /\
  exists l0, previous_coordinates (unpruned (ex_graph true)) [2; 1; 4] = Ok l0 /\ length l0 = 8.
Proof.
  split; [apply ex_wf|]. split; [apply reached_start; vm_compute; left; reflexivity|].
  split; [vm_compute; reflexivity|]. eexists. split; [vm_compute; reflexivity|reflexivity].
Qed.
