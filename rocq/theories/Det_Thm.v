(** The DET curves.  C96. *)
From Coq Require Import List Arith ZArith QArith Bool Permutation Sorted Lia Lqa.
From Verif Require Import Base Order_Model Det_Model Det_Spec Det_Proofs Det_Proofs2 Det_Proofs3.
Import ListNotations.
Local Open Scope res_scope.
Local Open Scope nat_scope.

(** the curve of one system *)
Theorem C96_curve : forall cap feedback sc, 1 <= cap -> feedback = false \/ conf_available sc = true ->
  moderate sc -> 1 <= length (corrects sc) -> 1 <= length (wrongs sc) ->
  room cap (length (corrects sc)) -> room cap (length (wrongs sc)) ->
  exists lines, make_det cap feedback [sc] = Ok (Some [lines]) /\ is_det (corrects sc) (wrongs sc) lines.
Proof.
  intros cap feedback sc Hc Hf M L L' R R'.
  destruct (curve_ok cap Hc 0 cap 0 cap sc (fit_start cap) (fit_start cap) M L L' R R')
    as (lines & mt & mn & E & _ & _ & D).
  exists lines. split; [|exact D]. unfold make_det.
  assert (feedback && negb (conf_available sc) = false) as ->
    by (destruct Hf as [->| ->]; [reflexivity|apply andb_false_r]).
  cbn [curves]. rewrite E. cbn [rbind]. reflexivity.
Qed.
Print Assumptions C96_curve.

(** the curves of several systems: the words of the systems before are still counted, with the
    confidence 0 *)
Theorem C96_systems : forall cap feedback l, 1 <= cap ->
  (feedback = false \/ exists sc r, l = sc :: r /\ conf_available sc = true) -> Forall moderate l ->
  (forall i, i < length l ->
     1 <= count_corrects (firstn (S i) l) /\ 1 <= count_wrongs (firstn (S i) l) /\
     room cap (count_corrects (firstn (S i) l)) /\ room cap (count_wrongs (firstn (S i) l))) ->
  exists cs, make_det cap feedback l = Ok (Some cs) /\ length cs = length l /\
    forall i sc lines, nth_error l i = Some sc -> nth_error cs i = Some lines ->
      is_det (repeat 0%Q (count_corrects (firstn i l)) ++ corrects sc)
             (repeat 0%Q (count_wrongs (firstn i l)) ++ wrongs sc) lines.
Proof.
  intros cap feedback l Hc Hf M H.
  destruct (curves_ok cap Hc l 0 cap 0 cap (fit_start cap) (fit_start cap) M H) as (cs & E & L & D).
  exists cs. split; [|split; assumption]. unfold make_det. destruct l as [|sc r].
  - destruct Hf as [->|(? & ? & K & _)]; [|discriminate K]. cbn [curves] in E. inversion E. reflexivity.
  - assert (feedback && negb (conf_available sc) = false) as ->.
    { destruct Hf as [->|(? & ? & K & K')]; [reflexivity|]. inversion K; subst. rewrite K'. apply andb_false_r. }
    rewrite E. reflexivity.
Qed.
Print Assumptions C96_systems.

(** no curve without confidences, if messages are printed *)
Theorem C96_no_confidences : forall cap sc r, (exists p, In p (concat sc) /\ u_conf p = false) ->
  make_det cap true (sc :: r) = Ok None.
Proof.
  intros cap sc r (p & Hp & Hc). unfold make_det, conf_available. cbn [andb].
  destruct (filter (fun p => negb (u_conf p)) (concat sc)) as [|q l] eqn:E.
  - exfalso. assert (In p (filter (fun p => negb (u_conf p)) (concat sc))) as I
      by (apply filter_In; rewrite Hc; split; [exact Hp|reflexivity]). rewrite E in I. destruct I.
  - reflexivity.
Qed.
Print Assumptions C96_no_confidences.

(** ** What fails *)
Definition w (e : eval) (c : Q) : step := {| s_eval := e; s_empty := false; s_conf := c |}.
Definition sys (l : list step) : scores := [[{| u_conf := true; u_steps := l |}]].
Definition sysA : scores := sys [w Corr (1 # 10); w Sub (5 # 10); w Corr (9 # 10); w Ins (6 # 10)].
Definition sysB : scores := sys [w Corr (7 # 10); w Sub (2 # 10); w Del 0; w Corr (8 # 10); w Ins (3 # 10)].

Lemma room_small : forall cap n, n < cap -> 1 <= cap -> room cap n.
Proof. intros cap n H Hc k E. pose proof (pow_pos k). nia. Qed.
Lemma below_cons : forall th x l, below th (x :: l) = (if Qle_bool th x then 0 else 1) + below th l.
Proof. intros th x l. unfold below. cbn [filter]. destruct (Qle_bool th x); reflexivity. Qed.

(** the points are not those of a threshold: here half of the wrong words are discarded before the
    least confident word, which is correct *)
Theorem C96_threshold_refuted : exists sc, forall cap, 3 <= cap -> exists lines,
  make_det cap true [sc] = Ok (Some [lines]) /\
  In (Some (part 0 2), Some (part (2 - 1) 2)) lines /\
  length (corrects sc) = 2 /\ length (wrongs sc) = 2 /\
  ~ exists th, below th (corrects sc) = 0 /\ below th (wrongs sc) = 1.
Proof.
  exists sysA. intros cap Hc.
  destruct (C96_curve cap true sysA) as (lines & E & D);
    [lia|right; reflexivity| |cbn; lia|cbn; lia|apply room_small; cbn; lia|apply room_small; cbn; lia|].
  { unfold moderate, all_steps. cbn [sysA sys concat map app u_steps w s_conf].
    repeat (constructor; [apply Qle_bool_iff; vm_compute; reflexivity|]). constructor. }
  exists lines. split; [exact E|]. split; [|split; [reflexivity|split; [reflexivity|]]].
  - destruct cap as [|[|[|cap]]]; try lia. vm_compute in E. inversion E. right. left. reflexivity.
  - intros (th & H1 & H2).
    change (corrects sysA) with [1 # 10; 9 # 10]%Q in H1. change (wrongs sysA) with [5 # 10; 6 # 10]%Q in H2.
    rewrite !below_cons in H1, H2.
    destruct (Qle_bool th (1 # 10)) eqn:E1; [|discriminate H1]. apply Qle_bool_iff in E1.
    destruct (Qle_bool th (5 # 10)) eqn:E2; [|assert (th <= 5 # 10)%Q as K by lra; apply Qle_bool_iff in K; congruence].
    destruct (Qle_bool th (6 # 10)) eqn:E3; [|assert (th <= 6 # 10)%Q as K by lra; apply Qle_bool_iff in K; congruence].
    discriminate H2.
Qed.
Print Assumptions C96_threshold_refuted.

(** the curve of the second system is not the curve of its words *)
Theorem C96_second_system_refuted : exists s1 s2, forall cap, 5 <= cap -> exists lines1 lines2,
  make_det cap true [s1; s2] = Ok (Some [lines1; lines2]) /\
  is_det (corrects s1) (wrongs s1) lines1 /\ ~ is_det (corrects s2) (wrongs s2) lines2.
Proof.
  exists sysA, sysB. intros cap Hc.
  destruct (C96_systems cap true [sysA; sysB]) as (cs & E & L & D).
  - lia.
  - right. exists sysA, [sysB]. split; reflexivity.
  - constructor; [|constructor; [|constructor]]; unfold moderate, all_steps;
      cbn [sysA sysB sys concat map app u_steps w s_conf];
      repeat (constructor; [apply Qle_bool_iff; vm_compute; reflexivity|]); constructor.
  - intros [|[|i]] Hi; cbn [length] in Hi; try lia.
    + cbn. split; [lia|]. split; [lia|]. split; apply room_small; lia.
    + cbn. split; [lia|]. split; [lia|]. split; apply room_small; lia.
  - destruct cs as [|l1 [|l2 [|? ?]]]; try discriminate L.
    exists l1, l2. split; [exact E|]. split.
    + exact (D 0 sysA l1 eq_refl eq_refl).
    + intros K. pose proof (D 1 sysB l2 eq_refl eq_refl) as K2.
      destruct K as (c1 & A1 & B1 & _). destruct K2 as (c2 & A2 & B2 & _).
      rewrite A1 in A2. inversion A2 as [A3]. apply (f_equal (@length point)) in A3.
      rewrite !map_length, B1, B2 in A3. cbn in A3. lia.
Qed.
Print Assumptions C96_second_system_refuted.

(** only the first system is looked at for confidences, and none if no messages are printed *)
Theorem C96_unchecked_refuted : exists s1 s2, conf_available s2 = false /\ forall cap, 5 <= cap ->
  exists cs, make_det cap true [s1; s2] = Ok (Some cs) /\ length cs = 2.
Proof.
  exists sysA, [[{| u_conf := false; u_steps := [w Corr 0; w Ins 0] |}]]. split; [reflexivity|].
  intros cap Hc.
  destruct (C96_systems cap true [sysA; [[{| u_conf := false; u_steps := [w Corr 0; w Ins 0] |}]]]) as (cs & E & L & _).
  - lia.
  - right. eexists _, _. split; reflexivity.
  - constructor; [|constructor; [|constructor]]; unfold moderate, all_steps;
      cbn [sysA sys concat map app u_steps w s_conf];
      repeat (constructor; [apply Qle_bool_iff; vm_compute; reflexivity|]); constructor.
  - intros [|[|i]] Hi; cbn [length] in Hi; try lia.
    + cbn. split; [lia|]. split; [lia|]. split; apply room_small; lia.
    + cbn. split; [lia|]. split; [lia|]. split; apply room_small; lia.
  - exists cs. split; [exact E|exact L].
Qed.
Print Assumptions C96_unchecked_refuted.

(** when the correct words fill the array exactly (10000 of them, 20000, ...) the mark is written
    behind it *)
Theorem C96_full_array_refuted : forall cap sc k, 1 <= cap -> length (corrects sc) = cap * 2 ^ k ->
  make_det cap false [sc] = Undef.
Proof.
  intros cap sc k Hc H. unfold make_det. cbn [andb curves]. rewrite (full_undef cap Hc sc k H). reflexivity.
Qed.
Print Assumptions C96_full_array_refuted.

(** a system without wrong words makes the program leave its arrays *)
Theorem C96_no_errors_refuted : forall cap sc, 1 <= cap -> wrongs sc = [] -> 2 <= length (corrects sc) ->
  Forall (fun c => 0 < c)%Q (corrects sc) -> make_det cap false [sc] = Undef.
Proof.
  intros cap sc Hc H1 H2 H3. unfold make_det. cbn [andb curves]. rewrite (perfect_undef cap Hc sc H1 H2 H3). reflexivity.
Qed.
Print Assumptions C96_no_errors_refuted.

(** *** Concrete cases *)
Example sysB_curve : exists lines, make_det 100 true [sysB] = Ok (Some [lines]) /\
  is_det [7 # 10; 8 # 10]%Q [2 # 10; 3 # 10]%Q lines /\
  lines = [(Some (5 # 10000), Some (5 # 10)); (Some (part 0 2), Some (part 1 2)); (Some (part 1 2), Some (part 1 2))]%Q.
Proof.
  destruct (C96_curve 100 true sysB) as (lines & E & D);
    [lia|right; reflexivity| |cbn; lia|cbn; lia|apply room_small; cbn; lia|apply room_small; cbn; lia|].
  { unfold moderate, all_steps. cbn [sysB sys concat map app u_steps w s_conf].
    repeat (constructor; [apply Qle_bool_iff; vm_compute; reflexivity|]). constructor. }
  exists lines. split; [exact E|]. split; [exact D|]. vm_compute in E. inversion E. vm_compute. reflexivity.
Qed.
Example no_conf_case : exists p, In p (concat [[{| u_conf := false; u_steps := [w Corr 0] |}]]) /\ u_conf p = false.
Proof. eexists. split; [left; reflexivity|reflexivity]. Qed.
Example full_case : length (corrects sysA) = 1 * 2 ^ 1 /\ make_det 1 false [sysA] = Undef.
Proof. split; reflexivity. Qed.
Example perfect_case : wrongs (sys [w Corr (1 # 2); w Corr (3 # 4)]) = [] /\
  make_det 100 false [sys [w Corr (1 # 2); w Corr (3 # 4)]] = Undef.
Proof. split; [reflexivity|]. apply (C96_no_errors_refuted 100); [lia|reflexivity|cbn; lia|].
  repeat constructor. Qed.
