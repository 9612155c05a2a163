(** Proofs about the matrix of the McNemar test. *)
From Coq Require Import String List ZArith NArith Arith Bool QArith Lia.
From Verif Require Import Base Store_Model Rpg_Model Rpg_Spec Sig_Model Sig_Spec Sig_Proofs1 Sig_Proofs2 Uni_Model Uni_Spec Uni_Proofs1 Uni_Proofs2.
Import ListNotations.
Local Open Scope res_scope.
Local Open Scope nat_scope.

Lemma ones_row : forall n vals b, n < 25 -> length vals = n + 1 -> Forall (fun v => length v < 2000) vals ->
  good_row {| s_cols := ones n; s_vals := vals; s_before := b; s_after := [] |}.
Proof.
  intros n vals b L V F. apply good_mk; [apply ones_good| | |exact F|congruence].
  - rewrite spell_ones, mcn_length. lia.
  - rewrite visible_ones. exact V.
Qed.
Lemma conf_values : forall names conf s, mcn_conf names conf (s, nth s names []) = nth s names [] :: map (mcn_about mcn_printed conf s) (seq 0 (length names)).
Proof. intros. unfold mcn_conf. cbn [snd fst]. f_equal. rewrite numbered_map, map_map. apply map_ext. intros t. reflexivity. Qed.
Lemma better_values : forall names win s, (forall i j, In (win i j) [-1; 0; 1]%Z) ->
  mcn_better names win (s, nth s names []) = [] :: map (mcn_who names win s) (seq 0 (length names)).
Proof.
  intros names win s W. unfold mcn_better. cbn [snd fst]. f_equal. rewrite numbered_map, map_map. apply map_ext. intros t. cbn [fst snd]. unfold mcn_who, better.
  destruct (s <? t); [|reflexivity]. specialize (W s t). destruct W as [<-|[<-|[<-|[]]]]; reflexivity.
Qed.
Lemma mcn_system_ok : forall names win conf s ops, (forall i j, In (win i j) [-1; 0; 1]%Z) -> length names < 25 ->
  mcn_rows (length names) names win conf (s, nth s names []) = Ok ops ->
  ops = flat_map calls (mcn_system mcn_printed names win conf s) /\ Forall good_row (mcn_system mcn_printed names win conf s).
Proof.
  intros names win conf s ops W L H. unfold mcn_rows in H. next H. next H. apply ok_inj in H. subst ops.
  apply iterated_inv in E. destruct E as (_ & -> & F1). apply iterated_inv in E0. destruct E0 as (_ & -> & F2). rewrite conf_values in *. rewrite (better_values names win s W) in *.
  unfold mcn_system. cbv zeta. split.
  - unfold calls, under, mkrow. cbn [flat_map s_before s_after s_cols s_vals map app]. rewrite spell_ones. reflexivity.
  - constructor; [|constructor; [|constructor]].
    + apply (ones_row (length names) _ [45%N]); [exact L| |exact F1]. unfold str, Rpg_Model.str in *. cbn [length s_vals mkrow]. rewrite map_length, seq_length. lia.
    + apply (ones_row (length names) _ []); [exact L| |exact F2]. unfold str, Rpg_Model.str in *. cbn [length s_vals mkrow]. rewrite map_length, seq_length. lia.
Qed.
Lemma mcn_bodies : forall names win conf, (forall i j, In (win i j) [-1; 0; 1]%Z) -> length names < 25 -> forall ks ops,
  Forall2 (fun me y => mcn_rows (length names) names win conf me = Ok y) (map (fun s => (s, nth s names [])) ks) ops ->
  concat ops = flat_map calls (flat_map (mcn_system mcn_printed names win conf) ks) /\ Forall good_row (flat_map (mcn_system mcn_printed names win conf) ks).
Proof.
  intros names win conf W L. induction ks as [|k ks IH]; intros ops H.
  - inversion H; subst. split; [reflexivity|constructor].
  - cbn [map] in H. inversion H as [|? y ? ys H1 H2]; subst. destruct (IH ys H2) as (A & B). destruct (mcn_system_ok _ _ _ _ _ W L H1) as (D & E).
    change (flat_map (mcn_system mcn_printed names win conf) (k :: ks)) with (mcn_system mcn_printed names win conf k ++ flat_map (mcn_system mcn_printed names win conf) ks).
    cbn [concat]. rewrite flat_map_app, <- D, <- A. split; [reflexivity|]. apply Forall_app. split; assumption.
Qed.
Lemma mcn_rows_ok : forall matrix_name tname names win conf ops, (forall i j, In (win i j) [-1; 0; 1]%Z) -> length matrix_name < 2000 -> length tname < 2000 ->
  mcn_ops matrix_name tname names win conf = Ok ops ->
  ops = flat_map calls (mcn_shows mcn_printed matrix_name tname names win conf) /\ Forall good_row (mcn_shows mcn_printed matrix_name tname names win conf)
  /\ length names < 25.
Proof.
  intros mn tn names win conf ops W M T H. unfold mcn_ops in H. cbv zeta in H. rewrite mcn_length in H.
  destruct (Nat.leb_spec 50 (1 + 2 * length names)) as [K|K]; [discriminate H|]. assert (L : length names < 25) by lia.
  next H. next H. apply ok_inj in H. subst ops. apply iterated_inv in E. destruct E as (_ & -> & F). apply each_inv in E0. rewrite numbered_map in E0.
  destruct (mcn_bodies names win conf W L _ _ E0) as (A & B). unfold mcn_shows. split; [|split; [|exact L]].
  - rewrite flat_map_app, A. cbn [flat_map]. unfold calls, over, mkrow. cbn [s_before s_after s_cols s_vals map app]. rewrite spell_ones. reflexivity.
  - assert (G : forall v b a, length v < 2000 -> good_row {| s_cols := [(99, 32)]%N; s_vals := [v]; s_before := b; s_after := a |}).
    { intros v b a V. apply good_mk.
      - split; [discriminate|]. split; [discriminate|]. split; [constructor; [cbn; auto|constructor]|]. cbn. split; [discriminate|exact I].
      - vm_compute. lia.
      - reflexivity.
      - constructor; [exact V|constructor].
      - intros _. constructor; [discriminate|constructor]. }
    apply Forall_app. split; [|exact B]. constructor; [apply (G mn [] []); exact M|]. constructor; [apply (G tn [] [32; 45]%N); exact T|].
    constructor; [|constructor]. apply (ones_row (length names) _ []); [exact L| |exact F]. cbn [length]. unfold str, Rpg_Model.str in *. lia.
Qed.
