From Coq Require Import List Arith ZArith QArith Bool Permutation Sorted Lia.
From Verif Require Import Base Order_Model Det_Model Det_Spec Det_Proofs Det_Proofs2.
From Verif Require Stats_Model Stats_Proofs.
Import ListNotations.
Local Open Scope res_scope.
Local Open Scope nat_scope.

Definition fit (cap n max : nat) : Prop :=
  exists k, max = cap * 2 ^ k /\ n <= max /\ (k = 0 \/ cap * 2 ^ (k - 1) < n).
Lemma map_repeat_ok : forall A B (g : A -> B) x n, map g (repeat x n) = repeat (g x) n.
Proof. induction n as [|n IH]; cbn [repeat map]; [reflexivity|]. rewrite IH. reflexivity. Qed.
Lemma fit_holds : forall cap n max, fit cap n max -> holds cap (zeros max) n max (repeat 0%Q n).
Proof.
  intros cap n max (k & Hm & Hn & Hk). exists (zeros (max - n)), k. repeat split.
  - unfold zeros. rewrite map_repeat_ok. rewrite <- repeat_app. f_equal. lia.
  - rewrite repeat_length. reflexivity.
  - apply repeat_length.
  - exact Hm.
  - exact Hk.
Qed.

Lemma holds_fit : forall cap a n max v, holds cap a n max v -> fit cap n max.
Proof.
  intros cap a n max v (r & k & -> & -> & Hl & Hm & Hk). exists k. rewrite app_length, map_length in Hl.
  repeat split; [exact Hm|lia|exact Hk].
Qed.
Lemma smax_pos : (0 <= smax)%Q.
Proof. unfold smax, Qle. cbn [Qnum Qden inject_Z]. vm_compute. discriminate. Qed.

Lemma roc_ok : forall cap a nt maxt t a' nn maxn f,
  holds cap a nt maxt t -> holds cap a' nn maxn f -> room cap (length t) -> room cap (length f) ->
  1 <= length t -> 1 <= length f -> Forall (fun v => v <= smax)%Q t ->
  exists rows, compute_roc a nt a' nn (repeat (Some 0%Q, Some 0%Q) (nt + nn)) = Ok rows /\
    is_det t f (firstn (nt + nn - 1) rows).
Proof.
  intros cap a nt maxt t a' nn maxn f H H' R R' L L' M.
  assert (nt = length t) as -> by (destruct H as (? & ? & _ & ? & _); assumption).
  assert (nn = length f) as -> by (destruct H' as (? & ? & _ & ? & _); assumption).
  destruct (marked_ok _ _ _ _ _ H (room_lt _ _ _ _ _ H R)) as (r & E & _).
  destruct (marked_ok _ _ _ _ _ H' (room_lt _ _ _ _ _ H' R')) as (r' & E' & _).
  unfold compute_roc. rewrite E, E'. cbn [rbind].
  rewrite set_ok by (rewrite repeat_length; lia). cbn [rbind firstn app].
  pose proof (Stats_Proofs.qsort_perm t) as Pt. pose proof (Stats_Proofs.qsort_perm f) as Pf.
  pose proof (Permutation_length Pt) as Lt. pose proof (Permutation_length Pf) as Lf.
  rewrite <- Lt, <- Lf in *.
  set (s := Stats_Model.qsort t) in *. set (u := Stats_Model.qsort f) in *.
  destruct (loop_ok s u (Stats_Proofs.qsort_sorted t) (Stats_Proofs.qsort_sorted f)) with
    (r := r) (r' := r') (fuel := length (first_point :: skipn 1 (repeat (Some 0%Q, Some 0%Q) (length s + length u))))
    (a := 0) (b := 0) (rows := first_point :: skipn 1 (repeat (Some 0%Q, Some 0%Q) (length s + length u)))
    (cuts := @nil (nat * nat)) as (rows & cuts & E1 & E2 & G).
  - apply Forall_forall. intros v Hv. rewrite Forall_forall in M. apply M.
    eapply Permutation_in; [exact Pt|exact Hv].
  - lia.
  - lia.
  - repeat split; [lia|lia| |]; intros; lia.
  - repeat split; [intros k ? ?; destruct k; discriminate|constructor|constructor].
  - cbn [length]. rewrite skipn_length, repeat_length. lia.
  - cbn [length]. rewrite skipn_length, repeat_length. lia.
  - reflexivity.
  - change (0 + 1) with 1 in E1. change (0 + 0) with 0 in E1. exists rows. split; [exact E1|]. rewrite E2.
    apply (good_is_det s u); try apply Stats_Proofs.qsort_sorted; try (apply Permutation_sym; assumption);
      try lia. exact G.
Qed.

Lemma corrects_smax : forall sc n, moderate sc -> Forall (fun v => v <= smax)%Q (repeat 0%Q n ++ corrects sc).
Proof.
  intros sc n M. apply Forall_app. split.
  - apply Forall_forall. intros v Hv. apply repeat_spec in Hv. subst. apply smax_pos.
  - unfold corrects. apply Forall_forall. intros v Hv. apply in_map_iff in Hv. destruct Hv as (x & <- & Hx).
    apply filter_In in Hx. destruct Hx as [Hx _]. unfold moderate in M. rewrite Forall_forall in M.
    apply (M x Hx).
Qed.

Lemma curve_ok : forall cap, 1 <= cap -> forall nt maxt nn maxn sc, fit cap nt maxt -> fit cap nn maxn ->
  moderate sc ->
  let t := repeat 0%Q nt ++ corrects sc in
  let f := repeat 0%Q nn ++ wrongs sc in
  1 <= length t -> 1 <= length f -> room cap (length t) -> room cap (length f) ->
  exists lines maxt' maxn', curve nt maxt nn maxn sc = Ok (lines, (length t, maxt', length f, maxn')) /\
    fit cap (length t) maxt' /\ fit cap (length f) maxn' /\ is_det t f lines.
Proof.
  intros cap Hc nt maxt nn maxn sc F F' M t f L L' R R'.
  destruct (collect_ok cap Hc (all_steps sc)
    {| d_targ := zeros maxt; d_nt := nt; d_maxt := maxt; d_non := zeros maxn; d_nn := nn; d_maxn := maxn |}
    (repeat 0%Q nt) (repeat 0%Q nn)) as (st & E & H & H').
  { split; cbn [d_targ d_nt d_maxt d_non d_nn d_maxn]; apply fit_holds; assumption. }
  unfold curve. rewrite E. cbn [rbind]. cbv zeta.
  change (repeat 0%Q nt ++ corr_of (all_steps sc)) with t in H.
  change (repeat 0%Q nn ++ wrong_of (all_steps sc)) with f in H'.
  destruct (roc_ok _ _ _ _ _ _ _ _ _ H H' R R' L L' (corrects_smax sc nt M)) as (rows & -> & D).
  cbn [rbind].
  assert (d_nt st = length t) as E1 by (destruct H as (? & ? & _ & ? & _); assumption).
  assert (d_nn st = length f) as E2 by (destruct H' as (? & ? & _ & ? & _); assumption).
  eexists _, _, _. rewrite <- E1, <- E2. split; [reflexivity|]. rewrite E1, E2 in *. split; [|split].
  - eapply holds_fit. exact H.
  - eapply holds_fit. exact H'.
  - exact D.
Qed.

Lemma fit_start : forall cap, fit cap 0 cap.
Proof. intros cap. exists 0. cbn [Nat.pow]. repeat split; [lia|lia|left; reflexivity]. Qed.

Lemma curves_ok : forall cap, 1 <= cap -> forall l nt maxt nn maxn, fit cap nt maxt -> fit cap nn maxn ->
  Forall moderate l ->
  (forall i, i < length l ->
     1 <= nt + count_corrects (firstn (S i) l) /\ 1 <= nn + count_wrongs (firstn (S i) l) /\
     room cap (nt + count_corrects (firstn (S i) l)) /\ room cap (nn + count_wrongs (firstn (S i) l))) ->
  exists cs, curves nt maxt nn maxn l = Ok cs /\ length cs = length l /\
    forall i sc lines, nth_error l i = Some sc -> nth_error cs i = Some lines ->
      is_det (repeat 0%Q (nt + count_corrects (firstn i l)) ++ corrects sc)
             (repeat 0%Q (nn + count_wrongs (firstn i l)) ++ wrongs sc) lines.
Proof.
  intros cap Hc. induction l as [|sc l IH]; intros nt maxt nn maxn F F' M H.
  - exists []. split; [reflexivity|]. split; [reflexivity|]. intros [|i] ? ? Hn; discriminate Hn.
  - inversion M as [|? ? M1 M2]; subst. cbn [curves].
    destruct (H 0) as (H1 & H2 & H3 & H4); [cbn [length]; lia|].
    unfold count_corrects, count_wrongs in H1, H2, H3, H4. cbn [firstn map list_sum fold_right] in H1, H2, H3, H4.
    rewrite Nat.add_0_r in *.
    destruct (curve_ok cap Hc nt maxt nn maxn sc F F' M1) as (lines & mt & mn & E & Ft & Fn & D);
      try (rewrite app_length, repeat_length; assumption).
    rewrite E. cbn [rbind].
    rewrite !app_length, !repeat_length in *.
    destruct (IH (nt + length (corrects sc)) mt (nn + length (wrongs sc)) mn Ft Fn M2) as (cs & E2 & L2 & D2).
    { intros i Hi. specialize (H (S i)). unfold count_corrects, count_wrongs in *.
      rewrite firstn_cons in H. cbn [map list_sum fold_right length] in H. rewrite !Nat.add_assoc in H.
      apply H. lia. }
    rewrite E2. cbn [rbind]. exists (lines :: cs). split; [reflexivity|]. split; [cbn [length]; lia|].
    intros [|i] sc' lines' Hn Hc'; cbn [nth_error] in Hn, Hc'.
    + inversion Hn; inversion Hc'; subst. unfold count_corrects, count_wrongs.
      cbn [firstn map list_sum fold_right]. rewrite !Nat.add_0_r. exact D.
    + specialize (D2 i sc' lines' Hn Hc'). unfold count_corrects, count_wrongs in *.
      cbn [firstn map list_sum fold_right]. rewrite !Nat.add_assoc. exact D2.
Qed.

(** ** Where the curve cannot be made *)
Lemma full_undef : forall cap, 1 <= cap -> forall sc k, length (corrects sc) = cap * 2 ^ k ->
  curve 0 cap 0 cap sc = Undef.
Proof.
  intros cap Hc sc k L.
  destruct (collect_ok cap Hc (all_steps sc)
    {| d_targ := zeros cap; d_nt := 0; d_maxt := cap; d_non := zeros cap; d_nn := 0; d_maxn := cap |}
    [] []) as (st & E & H & _).
  { split; cbn [d_targ d_nt d_maxt d_non d_nn d_maxn]; apply (fit_holds cap 0 cap), fit_start. }
  unfold curve. rewrite E. cbn [rbind]. cbv zeta. unfold compute_roc. cbn [app] in H.
  change (corr_of (all_steps sc)) with (corrects sc) in H.
  erewrite marked_full; [reflexivity|exact H|].
  destruct (holds_fit _ _ _ _ _ H) as (j & Hm & Hn & Hj).
  assert (d_nt st = cap * 2 ^ k) as E1 by (destruct H as (? & ? & _ & -> & _); exact L).
  rewrite E1, Hm in *.
  assert (k <= j) as K1.
  { apply (Nat.pow_le_mono_r_iff 2); [lia|]. nia. }
  destruct Hj as [->|Hj]; [replace k with 0 by lia; reflexivity|].
  assert (j - 1 < k) as K2. { apply (Nat.pow_lt_mono_r_iff 2); [lia|]. nia. }
  replace k with j by lia. reflexivity.
Qed.

Lemma perfect_loop : forall t f nt fuel ntrue nfalse npts rows,
  ntrue < nt -> (exists a, cell t ntrue = Ok a /\ (0 < a)%Q) ->
  (forall j, nfalse <= j -> nth_error f j = None \/ nth_error f j = Some (Some 0%Q)) ->
  length rows <= fuel + npts -> 
  npts < length rows ->
  roc_loop fuel t f nt 0 ntrue nfalse npts rows = Undef.
Proof.
  intros t f nt. induction fuel as [|fuel IH]; intros ntrue nfalse npts rows Hn (a & Ha & Pa) Hf Hr Hp; [lia|].
  cbn [roc_loop]. destruct (Nat.ltb_spec ntrue nt) as [_|K]; [|lia]. cbn [orb]. rewrite Ha. cbn [rbind].
  unfold cell at 1, get at 1. destruct (Hf nfalse (le_n _)) as [->| ->]; [reflexivity|]. cbn [rbind].
  destruct (Qle_bool a 0) eqn:E.
  { exfalso. apply Qle_bool_iff in E. exact (Qlt_not_le _ _ Pa E). }
  cbn [andb]. destruct (Nat.lt_ge_cases (npts + 1) (length rows)) as [K|K].
  - rewrite set_ok by exact K. cbn [rbind]. apply IH.
    + exact Hn.
    + exists a. split; assumption.
    + intros j Hj. apply Hf. lia.
    + rewrite app_length. cbn [length]. rewrite firstn_length, skipn_length. lia.
    + rewrite app_length. cbn [length]. rewrite firstn_length, skipn_length. lia.
  - rewrite set_out by exact K. reflexivity.
Qed.
Lemma collect_no_wrong : forall l st, wrong_of l = [] -> forall st', collect st l = Ok st' ->
  d_non st' = d_non st /\ d_nn st' = d_nn st.
Proof.
  induction l as [|x l IH]; intros st H st' E; cbn [collect] in E.
  - inversion E. split; reflexivity.
  - unfold wrong_of in H. cbn [filter] in H.
    destruct (is_wrong (s_eval x)) eqn:W; [discriminate H|].
    destruct (collect_step st x) as [st1| | |] eqn:S1; cbn [rbind] in E; try discriminate E.
    destruct (IH st1 H st' E) as [-> ->]. unfold collect_step in S1.
    destruct (s_eval x); try discriminate W; try (inversion S1; split; reflexivity).
    destruct (s_empty x); [inversion S1; split; reflexivity|].
    destruct (push _ _ _ _) as [[[? ?] ?]| | |]; cbn [rbind] in S1; inversion S1; split; reflexivity.
Qed.
Lemma perfect_undef : forall cap, 1 <= cap -> forall sc, wrongs sc = [] -> 2 <= length (corrects sc) ->
  Forall (fun v => 0 < v)%Q (corrects sc) -> curve 0 cap 0 cap sc = Undef.
Proof.
  intros cap Hc sc W L P.
  destruct (collect_ok cap Hc (all_steps sc)
    {| d_targ := zeros cap; d_nt := 0; d_maxt := cap; d_non := zeros cap; d_nn := 0; d_maxn := cap |}
    [] []) as (st & E & H & H').
  { split; cbn [d_targ d_nt d_maxt d_non d_nn d_maxn]; apply (fit_holds cap 0 cap), fit_start. }
  destruct (collect_no_wrong (all_steps sc) _ W _ E) as [N1 N2]. cbn [d_non d_nn] in N1, N2.
  unfold curve. rewrite E. cbn [rbind]. cbv zeta. unfold compute_roc. cbn [app] in H, H'.
  change (corr_of (all_steps sc)) with (corrects sc) in H.
  change (wrong_of (all_steps sc)) with (wrongs sc) in H'. rewrite W in H'.
  assert (d_nt st = length (corrects sc)) as E1 by (destruct H as (? & ? & _ & -> & _); reflexivity).
  destruct (Nat.eq_dec (d_nt st) (d_maxt st)) as [Q|Q].
  { rewrite (marked_full _ _ _ _ _ H Q). reflexivity. }
  destruct (marked_ok _ _ _ _ _ H) as (r & -> & _).
  { destruct (holds_fit _ _ _ _ _ H) as (? & ? & ? & _). lia. }
  cbn [rbind]. rewrite N1, N2.
  assert (exists r', sorted_marked (zeros cap) 0 = Ok (Some smax :: r') /\ Forall (eq (Some 0%Q)) r') as (r' & -> & Z).
  { destruct cap as [|c]; [lia|]. exists (zeros c). split; [reflexivity|].
    apply Forall_forall. intros y Hy. apply repeat_spec in Hy. symmetry. exact Hy. }
  cbn [rbind]. rewrite E1, Nat.add_0_r. rewrite set_ok by (rewrite repeat_length; lia). cbn [rbind firstn app].
  rewrite perfect_loop; [reflexivity| | | | |].
  - lia.
  - pose proof (Stats_Proofs.qsort_perm (corrects sc)) as Pm. pose proof (Permutation_length Pm) as Lq.
    exists (nth 1 (Stats_Model.qsort (corrects sc) ++ [smax]) 0%Q). split.
    + apply cell_ok. rewrite app_length. cbn [length]. lia.
    + rewrite app_nth1 by lia. rewrite Forall_forall in P. apply P. eapply Permutation_in; [exact Pm|].
      apply nth_In. lia.
  - intros j Hj. destruct j as [|j]; [lia|]. cbn [nth_error].
    destruct (nth_error r' j) as [y|] eqn:Y; [|left; reflexivity]. right. rewrite Forall_forall in Z.
    rewrite <- (Z y (nth_error_In _ _ Y)). reflexivity.
  - lia.
  - cbn [length]. lia.
Qed.
