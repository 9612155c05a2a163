(** What additions do to the words of any network; arcs between existing nodes. *)
From Coq Require Import List ZArith Arith Bool Lia.
From Verif Require Import Base Net_Model Net_Spec Net_Proofs1.
Import ListNotations.

Lemma NoDup_app_one : forall (l : list nat) x, NoDup l -> ~ In x l -> NoDup (l ++ [x]).
Proof.
  induction l as [|y l IH]; intros x H Hx; cbn; [repeat constructor; auto|]. inversion H; subst. constructor.
  - intros Hc. apply in_app_or in Hc. destruct Hc as [Hc|[->|[]]]; [contradiction|]. apply Hx. now left.
  - apply IH; [assumption|]. intros Hc. apply Hx. now right.
Qed.

Section Net.
Context {D : Type}.

Lemma head_says : forall (N : net D) d, wf_net N -> wf_net (add_head N d) /\
  forall ws, nsays (add_head N d) ws <-> exists ws', ws = d :: ws' /\ nsays N ws'.
Proof.
  intros N d W. split; [apply head_wf; exact W|]. intros ws. unfold nsays at 1. rewrite head_stop. unfold nsays.
  destruct (n_stop N) as [t|] eqn:E.
  - assert (Es : n_stop (add_head N d) = Some t) by (rewrite head_stop, E; reflexivity).
    split.
    + intros (xs & Hp & <-). apply (head_paths N d W t t) in Hp; [|exact Es|auto]. destruct Hp as (ys & -> & Hp).
      exists (map (n_data N) ys). split; [|exists ys; auto]. cbn [map]. unfold add_head.
      rewrite data_old by (apply (npath_arcs N _ _ _ W Hp)). cbn. now rewrite fupd_same.
    + intros (ws' & -> & ys & Hp & <-). exists (n_arcs N :: ys). split; [apply (head_paths N d W t t); eauto|].
      cbn [map]. unfold add_head. rewrite data_old by (apply (npath_arcs N _ _ _ W Hp)). cbn. now rewrite fupd_same.
  - assert (Es : n_stop (add_head N d) = Some (n_nodes N)) by (rewrite head_stop, E; reflexivity).
    pose proof (wf_stop N W) as Hs. rewrite E in Hs. split.
    + intros (xs & Hp & <-). apply (head_paths N d W (n_start N) (n_nodes N)) in Hp; [|exact Es|auto]. destruct Hp as (ys & -> & Hp).
      exists []. split; [|reflexivity]. destruct ys as [|y ys]; [cbn; now rewrite fupd_same|].
      apply npath_cons_inv in Hp. rewrite Hs in Hp. destruct Hp as [[] _].
    + intros (ws' & -> & ->). exists [n_arcs N]. split; [apply (head_paths N d W (n_start N)); [exact Es|auto|exists []; split; [reflexivity|constructor]]|].
      cbn. now rewrite fupd_same.
Qed.

Lemma tail_says : forall (N : net D) d, wf_net N -> wf_net (add_tail N d) /\
  forall ws, nsays (add_tail N d) ws <-> exists ws', ws = ws' ++ [d] /\ nsays N ws'.
Proof.
  intros N d W. unfold add_tail. destruct (n_stop N) as [t|] eqn:E.
  - split; [apply tail_wf; assumption|]. intros ws. unfold nsays.
    change (n_stop (insert_before N t d)) with (n_stop N). rewrite E. split.
    + intros (xs & Hp & <-). apply (tail_paths N d t W E) in Hp. destruct Hp as (ys & -> & Hp).
      exists (map (n_data N) ys). split; [|eauto]. rewrite map_app, tail_data_old by (apply (npath_arcs N _ _ _ W Hp)).
      cbn. now rewrite fupd_same.
    + intros (ws' & -> & ys & Hp & <-). exists (ys ++ [n_arcs N]). split; [apply (tail_paths N d t W E); eauto|].
      rewrite map_app, tail_data_old by (apply (npath_arcs N _ _ _ W Hp)). cbn. now rewrite fupd_same.
  - destruct (head_says N d W) as [H1 H2]. split; [exact H1|]. intros ws. unfold add_head in H2. rewrite H2. unfold nsays. rewrite E.
    split; intros (ws' & -> & ->); exists []; auto.
Qed.

Lemma ends_says : forall (N : net D) d, wf_net N ->
  (wf_net (add_head N d) /\ forall ws, nsays (add_head N d) ws <-> exists ws', ws = d :: ws' /\ nsays N ws') /\
  (wf_net (add_tail N d) /\ forall ws, nsays (add_tail N d) ws <-> exists ws', ws = ws' ++ [d] /\ nsays N ws').
Proof. intros N d W. split; [apply head_says|apply tail_says]; exact W. Qed.

(** ** An arc between two nodes *)
Section Between.
Variable N : net D.
Variables (u v : nat) (d : option D).
Hypothesis W : wf_net N.
Hypothesis Hu : exists xs, npath N (n_start N) xs u.
Hypothesis Hv : exists t xs, n_stop N = Some t /\ npath N v xs t.
Hypothesis Hub : v < n_nodes N.
Hypothesis Hr : exists r : nat -> nat, (forall x w, In x (n_out N w) -> r w < r (n_to N x)) /\ r u < r v.

Local Notation N' := (insert_between N u v d).
Local Notation x0 := (n_arcs N).

Lemma out_lt : forall x w, In x (n_out N w) -> x < x0.
Proof. intros x w H. apply (wf_out N W x w H). Qed.
Lemma in_lt : forall x w, In x (n_in N w) -> x < x0.
Proof. intros x w H. destruct (wf_in N W x w H) as [_ H2]. eapply out_lt; eauto. Qed.

Lemma btw_out : forall w, n_out N' w = if w =? u then n_out N u ++ [x0] else n_out N w.
Proof.
  intros w. cbn. unfold fupd, add_arc. destruct (Nat.eqb_spec w u); [|reflexivity].
  destruct (mem x0 (n_out N u)) eqn:E; [|reflexivity]. apply mem_In in E. apply out_lt in E. lia.
Qed.
Lemma btw_in : forall w, n_in N' w = if w =? v then n_in N v ++ [x0] else n_in N w.
Proof.
  intros w. cbn. unfold fupd, add_arc. destruct (Nat.eqb_spec w v); [|reflexivity].
  destruct (mem x0 (n_in N v)) eqn:E; [|reflexivity]. apply mem_In in E. apply in_lt in E. lia.
Qed.
Lemma btw_out_In : forall x w, In x (n_out N' w) <-> In x (n_out N w) \/ (x = x0 /\ w = u).
Proof.
  intros x w. rewrite btw_out. destruct (Nat.eqb_spec w u) as [->|Hw]; [|tauto]. rewrite in_app_iff. cbn. intuition.
Qed.
Lemma btw_in_In : forall x w, In x (n_in N' w) <-> In x (n_in N w) \/ (x = x0 /\ w = v).
Proof.
  intros x w. rewrite btw_in. destruct (Nat.eqb_spec w v) as [->|Hw]; [|tauto]. rewrite in_app_iff. cbn. intuition.
Qed.
Lemma btw_to : forall x, n_to N' x = if x =? x0 then v else n_to N x.
Proof. reflexivity. Qed.
Lemma btw_to_old : forall x w, In x (n_out N w) -> n_to N' x = n_to N x.
Proof. intros x w H. apply out_lt in H. rewrite btw_to. destruct (Nat.eqb_spec x x0); [lia|reflexivity]. Qed.
Lemma btw_to_new : n_to N' x0 = v.
Proof. rewrite btw_to, Nat.eqb_refl. reflexivity. Qed.

Lemma btw_path_old : forall a xs b, npath N a xs b -> npath N' a xs b.
Proof.
  intros a xs b H. induction H as [|a x xs b Hx Hp IH]; [constructor|]. econstructor; [apply btw_out_In; eauto|].
  erewrite btw_to_old by eauto. exact IH.
Qed.

Lemma btw_wf : wf_net N'.
Proof.
  destruct Hu as (xu & Hpu). destruct Hv as (t & xv & Et & Hpv). destruct Hr as (r & Hr1 & Hr2).
  assert (Hnu : u < n_nodes N) by (apply (npath_bound N _ xu u W Hpu), (wf_start N W)).
  pose proof (wf_stop N W) as Hst. rewrite Et in Hst. destruct Hst as (Ht1 & Ht2 & Ht3 & Ht4).
  assert (Hvs : v <> n_start N).
  { intros ->. destruct (npath_rank N r _ _ _ Hr1 Hpu) as [Hc _]. lia. }
  assert (Hut : u <> t).
  { intros ->. destruct (npath_rank N r _ _ _ Hr1 Hpv) as [Hc _]. lia. }
  constructor.
  - intros x w Hx. apply btw_out_In in Hx. destruct Hx as [Hx|[-> ->]].
    + pose proof (wf_out N W x w Hx) as (A1 & A2 & A3 & A4 & A5). erewrite btw_to_old by eauto.
      split; [cbn; rewrite fupd_other by lia; exact A1|]. cbn [n_arcs n_nodes insert_between].
      split; [lia|]. split; [exact A3|]. split; [exact A4|]. apply btw_in_In. now left.
    + rewrite btw_to_new. split; [cbn; apply fupd_same|]. cbn [n_arcs n_nodes insert_between]. split; [lia|].
      split; [exact Hnu|]. split; [exact Hub|]. apply btw_in_In. now right.
  - intros x w Hx. apply btw_in_In in Hx. destruct Hx as [Hx|[-> ->]].
    + pose proof (wf_in N W x w Hx) as (A1 & A2). erewrite btw_to_old by eauto. split; [exact A1|]. apply btw_out_In. left.
      cbn. rewrite fupd_other by (apply out_lt in A2; lia). exact A2.
    + rewrite btw_to_new. split; [reflexivity|]. apply btw_out_In. right. cbn. rewrite fupd_same. auto.
  - intros w. rewrite btw_out. destruct (w =? u); [|apply (wf_nd_out N W)]. apply NoDup_app_one; [apply (wf_nd_out N W)|].
    intros H. apply out_lt in H. lia.
  - intros w. rewrite btw_in. destruct (w =? v); [|apply (wf_nd_in N W)]. apply NoDup_app_one; [apply (wf_nd_in N W)|].
    intros H. apply in_lt in H. lia.
  - exists r. intros x w Hx. apply btw_out_In in Hx. destruct Hx as [Hx|[-> ->]]; [erewrite btw_to_old by eauto; auto|].
    rewrite btw_to_new. exact Hr2.
  - split; [apply (wf_start N W)|]. rewrite btw_in. change (n_start N') with (n_start N).
    destruct (Nat.eqb_spec (n_start N) v); [congruence|]. apply (wf_start N W).
  - change (n_stop N') with (n_stop N). rewrite Et. split; [exact Ht1|]. split.
    + rewrite btw_out. destruct (Nat.eqb_spec t u); [congruence|exact Ht2].
    + split; [exact Ht3|]. destruct Ht4 as (xs & Hp). exists xs. apply btw_path_old. exact Hp.
  - intros x w Hx. apply btw_out_In in Hx. change (n_start N') with (n_start N). destruct Hx as [Hx|[-> ->]].
    + destruct (wf_reach N W x w Hx) as (xs & Hp). exists xs. apply btw_path_old. exact Hp.
    + exists xu. apply btw_path_old. exact Hpu.
  - intros x w Hx. change (n_stop N') with (n_stop N). apply btw_out_In in Hx. destruct Hx as [Hx|[-> ->]].
    + destruct (wf_coreach N W x w Hx) as (t' & xs & A1 & A2). exists t', xs. split; [exact A1|]. erewrite btw_to_old by eauto.
      apply btw_path_old. exact A2.
    + rewrite btw_to_new. exists t, xv. split; [exact Et|]. apply btw_path_old. exact Hpv.
Qed.

(** The paths are the old ones and the old paths to [u], the new arc and an old path from [v]. *)
Lemma btw_paths : forall a b xs, npath N' a xs b <->
  npath N a xs b \/ exists ys zs, xs = ys ++ x0 :: zs /\ npath N a ys u /\ npath N v zs b.
Proof.
  destruct Hr as (r & Hr1 & Hr2). intros a b xs. split.
  - intros H. induction H as [a|a x xs b Hx Hp IH]; [left; constructor|]. apply btw_out_In in Hx. destruct Hx as [Hx|[-> ->]].
    + erewrite btw_to_old in IH by eauto. destruct IH as [IH|(ys & zs & -> & A1 & A2)].
      * left. econstructor; eauto.
      * right. exists (x :: ys), zs. split; [reflexivity|]. split; [econstructor; eauto|exact A2].
    + rewrite btw_to_new in IH. destruct IH as [IH|(ys & zs & -> & A1 & A2)].
      * right. exists [], xs. split; [reflexivity|]. split; [constructor|exact IH].
      * exfalso. destruct (npath_rank N r _ _ _ Hr1 A1) as [Hc _]. lia.
  - intros [H|(ys & zs & -> & A1 & A2)]; [apply btw_path_old; exact H|].
    apply (npath_app N' a ys u); [apply btw_path_old; exact A1|]. econstructor; [apply btw_out_In; now right|].
    rewrite btw_to_new. apply btw_path_old. exact A2.
Qed.
End Between.
End Net.
