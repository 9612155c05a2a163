(** Lines of words, and the distance of ROVER. *)
From Coq Require Import List ZArith NArith Arith Bool Lia Permutation.
From Verif Require Import Base Text_Model Text_Spec Word_Model Word_Spec Word_Proofs Word_Thm.
From Verif Require Import Net_Model Net_Spec Net_Proofs1 NetDp_Model Wtn_Model Wtn_Spec Wtn_Proofs1 Wtn_Proofs2.
Import ListNotations.
Local Open Scope res_scope.

Section Line.
Context {D : Type}.
Definition tail_of (N : net D) (l : list D) : Prop :=
  (N = net_init /\ l = []) \/ (exists r s v, saus N (r ++ [(s, v)]) /\ sdata N (r ++ [(s, v)]) = map (map Some) (map (fun d => [d]) l)).
Lemma tail_step N l d : tail_of N l -> tail_of (add_tail N (Some d)) (l ++ [d]).
Proof.
  intros [[-> ->]|(r & s & v & S0 & E)]; right.
  - assert (H : is_wtn (@net_init D) []) by (split; [apply wf_init|constructor; reflexivity]). exists [], [0], 1. split.
    + split; [apply head_wf, wf_init|]. exists 1. split; [reflexivity|]. constructor; [reflexivity|discriminate|intros x [<-|[]]; reflexivity|constructor].
    + reflexivity.
  - pose proof S0 as (W & t & ST & R). pose proof (row_end N _ _ _ R) as RE. destruct s as [|x s].
    { exfalso. unfold sdata in E. rewrite !map_app in E. cbn in E. destruct (exists_last (l := l)) as (l' & d' & ->).
      - intros ->. cbn in E. destruct (map (fun p => map (n_data N) (fst p)) r); discriminate.
      - rewrite !map_app in E. cbn in E. apply app_inj_tail in E. destruct E as [_ E]. discriminate. }
    pose proof (mid_to N r (x :: s) v [] x S0 (or_introl eq_refl)) as TV.
    assert (t = v) as ->.
    { rewrite nodes_app, app_length in RE. cbn [length map] in RE. rewrite nth_error_app2 in RE by (cbn; rewrite map_length; lia). cbn [length] in RE. rewrite map_length in RE.
      replace (length r + 1 - S (length r)) with 0 in RE by lia. cbn in RE. congruence. }
    unfold add_tail. rewrite ST. destruct (saus_before N r (x :: s) v [] x (Some d) S0 (or_introl eq_refl)) as (S1 & D1 & O1 & _). rewrite TV in S1, D1, O1.
    exists (r ++ [(x :: s, n_nodes N)]), [n_arcs N], v. rewrite <- app_assoc. split; [exact S1|].
    assert (ER : map (map Some) (map (fun d => [d]) (l ++ [d])) = sdata N (r ++ [(x :: s, v)]) ++ [[Some d]]) by (rewrite E, !map_app; reflexivity). rewrite ER.
    unfold sdata. rewrite !map_app. cbn [map fst]. rewrite D1, <- app_assoc. cbn [app]. f_equal; [|f_equal].
    + apply map_ext_in. intros [l' u] I. cbn [fst]. apply map_ext_in. intros y Iy. apply O1. destruct (In_nth_error _ _ I) as (k & Ek).
      apply (slot_lt N r (x :: s) v [] S0 k l' u y); [|exact Iy]. rewrite nth_error_app1 by (apply nth_error_Some; congruence). exact Ek.
    + change (map (n_data (insert_before N v (Some d))) (x :: s) = map (n_data N) (x :: s)). apply map_ext_in. intros y Iy. apply O1. apply (slot_lt N r (x :: s) v [] S0 (length r) (x :: s) v y); [|exact Iy].
      rewrite nth_error_app2, Nat.sub_diag by lia. reflexivity.
Qed.
Lemma word_line_ok (l : list D) : is_line (word_line l) l.
Proof.
  assert (H : tail_of (word_line l) l).
  { unfold word_line. assert (G : forall k N l0, tail_of N l0 -> tail_of (fold_left (fun N d => add_tail N (Some d)) k N) (l0 ++ k)).
    { induction k as [|d k IH]; intros N l0 H; [rewrite app_nil_r; exact H|]. cbn [fold_left]. replace (l0 ++ d :: k) with ((l0 ++ [d]) ++ k) by (rewrite <- app_assoc; reflexivity). apply IH, tail_step, H. }
    apply (G l net_init []). left. auto. }
  destruct H as [[E ->]|(r & s & v & S0 & E)].
  - rewrite E. split; [apply wf_init|constructor; reflexivity].
  - pose proof S0 as (W & t & ST & R). split; [exact W|]. eapply row_slots; [exact R|apply stop_no_out; assumption|exact E].
Qed.
End Line.

Lemma starts_more t s b : starts t s = true -> starts t (s ++ b) = true.
Proof. revert s. induction t as [|c t IH]; intros [|a s] H; try reflexivity; try discriminate. cbn in *. apply andb_true_iff in H. destruct H as [H1 H2]. rewrite H1. apply IH, H2. Qed.
Lemma sync_more s b : has_sync s = true -> has_sync (s ++ b) = true.
Proof.
  induction s as [|a s IH]; intros H; [discriminate|]. change (has_sync (a :: s)) with (starts SYNC (a :: s) || has_sync s) in H. change ((a :: s) ++ b) with (a :: (s ++ b)).
  change (has_sync (a :: s ++ b)) with (starts SYNC (a :: s ++ b) || has_sync (s ++ b)). apply orb_true_iff in H. apply orb_true_iff. destruct H as [H|H]; [left; exact (starts_more _ _ _ H)|right; auto].
Qed.
Lemma starts_iff t s : starts t s = true <-> exists b c, s = b ++ c /\ map small b = t.
Proof.
  revert s. induction t as [|a t IH]; intros s.
  - split; [intros _; exists [], s; auto|reflexivity].
  - destruct s as [|x s]; cbn [starts].
    + split; [discriminate|]. intros (b & c & E & M). destruct b; discriminate.
    + rewrite andb_true_iff, IH, N.eqb_eq. split.
      * intros (E & b & c & -> & M). exists (x :: b), c. split; [reflexivity|]. cbn. unfold small at 1. unfold lower in E. rewrite E, M. reflexivity.
      * intros (b & c & E & M). destruct b as [|y b]; [discriminate|]. cbn in E, M. injection E as <- E. injection M as M1 M2. split; [exact M1|]. exists b, c. auto.
Qed.
Lemma sync_iff s : has_sync s = true <-> has_tag s.
Proof.
  induction s as [|x s IH].
  - split; [discriminate|]. intros (a & b & c & E & M). destruct a; [|discriminate]. destruct b; discriminate.
  - change (has_sync (x :: s)) with (starts SYNC (x :: s) || has_sync s). rewrite orb_true_iff, IH, starts_iff. split.
    + intros [(b & c & E & M)|(a & b & c & -> & M)]; [exists [], b, c; auto|exists (x :: a), b, c; auto].
    + intros (a & b & c & E & M). destruct a as [|y a]; [left; exists b, c; auto|]. cbn in E. injection E as <- E. right. exists a, b, c. auto.
Qed.
Lemma no_sync w : rover_word w -> has_sync (w_value w) = false.
Proof. intros (_ & _ & _ & _ & H). destruct (has_sync (w_value w)) eqn:E; [|reflexivity]. exfalso. apply H, sync_iff, E. Qed.
Lemma rover_copy w : rover_word w -> rover_word (copy_word w).
Proof.
  intros (H1 & F1 & H2 & H3 & H4). assert (K : w_value (copy_word w) = w_value w \/ (w_value w = removelast (w_value w) ++ [42%N] /\ w_value (copy_word w) = removelast (w_value w) /\ removelast (w_value w) <> [])).
  { unfold copy_word, new_word. cbn [w_value]. destruct (w_value w) as [|a [|b l]]; [auto|auto|]. destruct (last (a :: b :: l) 0 =? 42)%N eqn:E; [|auto]. right. apply N.eqb_eq in E.
    split; [rewrite <- E; apply app_removelast_last; discriminate|]. split; [reflexivity|discriminate]. }
  split; [exact H1|]. split; [exact F1|]. destruct K as [->|(E & -> & NE)]; [auto|]. split; [exact NE|]. rewrite E in H3. apply Forall_app in H3. split; [apply H3|].
  intros T. apply H4. rewrite E. apply sync_iff, sync_more, sync_iff, T.
Qed.
Lemma rover_good w : rover_word w -> good_word ASCII w /\ text_is w (w_value w).
Proof.
  intros (H1 & _ & H2 & H3 & _). pose proof (ascii_wf _ H3) as W. assert (T : text_is w (w_value w)) by (left; auto). split; [|exact T]. split; [exact W|]. exists (w_value w). split; [exact T|]. split; assumption.
Qed.
Lemma same_iff s t : same s t = true <-> s = t.
Proof. unfold same. destruct (list_eq_dec N.eq_dec s t); split; congruence. Qed.
Lemma at_rover w : rover_word w -> is_at ASCII w = Ok (same (w_value w) [64%N]).
Proof.
  intros R. destruct (is_at_ok ASCII w (proj1 (proj1 (rover_good w R)))) as (b & -> & H). f_equal. unfold null_word in H. rewrite <- same_iff in H. destruct b, (same (w_value w) [64%N]); try reflexivity; [symmetry|]; apply H; reflexivity.
Qed.
Lemma rover_ok x y : x <> None \/ y <> None -> (forall d, x = Some d -> rover_word d) -> (forall d, y = Some d -> rover_word d) ->
  wwd_rover ASCII x y = Ok (rover_cost x y) /\ (rover_cost x y <= 4000)%Z.
Proof.
  intros H PX PY. split.
  - destruct x as [w1|], y as [w2|].
    + pose proof (PX w1 eq_refl) as R1. pose proof (PY w2 eq_refl) as R2. destruct (rover_good w1 R1) as [G1 T1]. destruct (rover_good w2 R2) as [G2 T2].
      destruct (C28_verdict ASCII w1 w2 _ _ G1 G2 T1 T2) as (z & E & V).
      unfold wwd_rover, null_at. cbn [rbind]. rewrite (no_sync w1 R1), (no_sync w2 R2). cbn [orb]. rewrite (at_rover w1 R1), (at_rover w2 R2). cbn [rbind]. rewrite E. cbn [rbind].
      replace (w_frag w1 || w_frag w2) with false in V by (destruct R1 as (_ & -> & _), R2 as (_ & -> & _); reflexivity). cbn [same_text] in V. rewrite <- same_iff in V. unfold rover_cost.
      destruct (same (w_value w1) [64%N]) eqn:A1, (same (w_value w2) [64%N]) eqn:A2; cbn [andb orb]; try reflexivity.
      * destruct (Z.eqb_spec z 0) as [Z0|_]; [|reflexivity]. exfalso. apply V in Z0. apply same_iff in Z0. rewrite Z0 in A1. congruence.
      * destruct (Z.eqb_spec z 0) as [Z0|_]; [|reflexivity]. exfalso. apply V in Z0. apply same_iff in Z0. rewrite Z0 in A1. congruence.
      * destruct (Z.eqb_spec z 0) as [Z0|NZ]; [rewrite (proj1 V Z0); reflexivity|]. destruct (same (w_value w1) (w_value w2)); [exfalso; apply NZ, V; reflexivity|reflexivity].
    + pose proof (PX w1 eq_refl) as R1. unfold wwd_rover, null_at. rewrite (at_rover w1 R1), (no_sync w1 R1). cbn [rbind]. unfold rover_cost. destruct R1 as (-> & _). destruct (same _ _); reflexivity.
    + pose proof (PY w2 eq_refl) as R1. unfold wwd_rover, null_at. rewrite (at_rover w2 R1), (no_sync w2 R1). cbn [rbind]. unfold rover_cost. destruct R1 as (-> & _). destruct (same _ _); reflexivity.
    + destruct H; congruence.
  - unfold rover_cost. destruct x as [a|], y as [b|]; repeat match goal with |- context [if ?c then _ else _] => destruct c end; lia.
Qed.
