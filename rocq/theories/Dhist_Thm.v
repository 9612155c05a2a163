(** The histograms of the confidences.  C97. *)
From Coq Require Import List Arith ZArith QArith Bool Permutation Sorted Lia Lqa.
From Verif Require Import Base Order_Model Det_Model Det_Spec Det_Proofs Det_Proofs4 Det_Proofs5.
Import ListNotations.
Local Open Scope res_scope.
Local Open Scope nat_scope.

(** every confidence from 0 to 1 belongs to exactly one bin *)
Theorem C97_one_bin : forall n c, 1 <= n <= 1000 -> (0 <= c <= 1)%Q ->
  exists b, b < n /\ in_bin n b c = true /\ forall b', b' < n -> in_bin n b' c = true -> b' = b.
Proof.
  intros n c Hn Hc. destruct (bin_index n c Hn) as (i & _ & [(_ & b & _ & Hb & K)|(K & _)]).
  - destruct Hc. split; lra.
  - intros [_ K]. destruct Hc. lra.
  - exists b. split; [exact Hb|]. split; [rewrite (K b Hb); apply Nat.eqb_refl|].
    intros b' Hb' I. rewrite (K b' Hb') in I. apply Nat.eqb_eq, I.
  - exfalso. apply K, Hc.
Qed.
Print Assumptions C97_one_bin.

(** the bins count the correct and the incorrect words of their range, and the words out of range are
    reported *)
Theorem C97_bins : forall n sc, 1 <= n <= 1000 -> binnable n sc ->
  exists h, binned n sc = Ok (h, out_of_range sc) /\ length h = n /\
    forall b, b < n -> nth_error h b = Some (bin_correct n b sc, bin_incorrect n b sc).
Proof. exact binned_ok. Qed.
Print Assumptions C97_bins.

Lemma prob_binnable : forall n sc, probabilities sc -> binnable n sc.
Proof.
  intros n sc H. eapply Forall_impl; [|exact H]. intros x [H1 H2]. cbv beta. split; [split; lra|].
  intros [_ K]. lra.
Qed.

(** the histogram file: two lines for each of the hundred bins *)
Theorem C97_histogram : forall feedback sc, feedback = false \/ conf_available sc = true -> binnable 100 sc ->
  exists lines, make_histogram feedback sc = Ok (Some lines) /\ length lines = 200 /\
    forall b, b < 100 -> exists from to,
      (from == part b 100)%Q /\ (to == part (b + 1) 100)%Q /\
      nth_error lines (2 * b) = Some (from, bin_correct 100 b sc + bin_incorrect 100 b sc,
                                      bin_correct 100 b sc, bin_incorrect 100 b sc) /\
      nth_error lines (2 * b + 1) = Some (to, bin_correct 100 b sc + bin_incorrect 100 b sc,
                                          bin_correct 100 b sc, bin_incorrect 100 b sc).
Proof.
  intros feedback sc Hf F. unfold make_histogram.
  assert (feedback && negb (conf_available sc) = false) as ->
    by (destruct Hf as [->| ->]; [reflexivity|apply andb_false_r]).
  destruct (binned_ok 100 sc) as (h & -> & L & H); [lia|exact F|]. cbn [rbind fst].
  eexists. split; [reflexivity|]. split; [rewrite hist_lines_len, L; reflexivity|].
  intros b Hb. destruct (hist_lines_nth 100 h 0 b _ _ (H b Hb)) as [H1 H2].
  eexists _, _. split; [|split; [|split; [exact H1|exact H2]]]; cbn [Nat.add]; unfold part; field; discriminate.
Qed.
Print Assumptions C97_histogram.

(** the binned file: for each tenth its middle and the percentage of its words that are correct *)
Theorem C97_binned : forall feedback sc, feedback = false \/ conf_available sc = true -> binnable 10 sc ->
  exists lines, make_binned feedback sc = Ok (Some lines) /\ length lines = 10 /\
    forall b, b < 10 -> exists mid p, nth_error lines b = Some (mid, p) /\
      (mid == (part b 10 + part (b + 1) 10) / 2)%Q /\
      (bin_correct 10 b sc + bin_incorrect 10 b sc = 0 -> (p == 0)%Q) /\
      (bin_correct 10 b sc + bin_incorrect 10 b sc <> 0 ->
         (p == part (bin_correct 10 b sc) (bin_correct 10 b sc + bin_incorrect 10 b sc) * 100)%Q).
Proof.
  intros feedback sc Hf F. unfold make_binned.
  assert (feedback && negb (conf_available sc) = false) as ->
    by (destruct Hf as [->| ->]; [reflexivity|apply andb_false_r]).
  destruct (binned_ok 10 sc) as (h & -> & L & H); [lia|exact F|]. cbn [rbind fst].
  eexists. split; [reflexivity|]. split; [rewrite binned_lines_len, L; reflexivity|].
  intros b Hb. eexists _, _. split; [apply (binned_lines_nth h 0 b), (H b Hb)|]. split; [|split].
  - cbn [Nat.add]. unfold part. rewrite Nat2Z.inj_add, inject_Z_plus. field.
  - intros E. unfold pct_corr. cbn [fst snd]. rewrite E. reflexivity.
  - intros E. unfold pct_corr. cbn [fst snd].
    destruct (Nat.eqb_spec (bin_correct 10 b sc + bin_incorrect 10 b sc) 0) as [K|_]; [contradiction|]. reflexivity.
Qed.
Print Assumptions C97_binned.

(** no histogram without confidences, if messages are printed *)
Theorem C97_no_confidences : forall sc bins, (exists p, In p (concat sc) /\ u_conf p = false) ->
  make_histogram true sc = Ok None /\ make_binned true sc = Ok None /\ make_scaled true bins sc = Ok None.
Proof.
  intros sc bins (p & Hp & Hc).
  assert (conf_available sc = false) as A.
  { unfold conf_available.
    destruct (filter (fun p => negb (u_conf p)) (concat sc)) as [|q l] eqn:E; [|reflexivity].
    exfalso. assert (In p (filter (fun p => negb (u_conf p)) (concat sc))) as I
      by (apply filter_In; rewrite Hc; split; [exact Hp|reflexivity]). rewrite E in I. destruct I. }
  unfold make_histogram, make_binned, make_scaled. rewrite A. repeat split; reflexivity.
Qed.
Print Assumptions C97_no_confidences.

(** the scaled file: the words in order of their confidences are cut in bins of equal numbers, the last
    of which takes what is left *)
Theorem C97_scaled : forall feedback bins sc, feedback = false \/ conf_available sc = true ->
  1 <= bins -> bins <= length (said sc) ->
  Forall (fun x => -(99999) <= s_conf x <= 99999)%Q (said sc) ->
  let q := length (said sc) / bins in
  exists (cut : list (list step)) lines,
    make_scaled feedback bins sc = Ok (Some lines) /\
    (* every word is in one bin, the less confident first *)
    Permutation (concat cut) (said sc) /\
    StronglySorted (fun x y => s_conf x <= s_conf y)%Q (concat cut) /\
    length lines = length cut /\
    (* as many bins as hold [q] words *)
    length cut = length (said sc) / q /\
    (forall i, i + 1 < length cut -> length (nth i cut []) = q) /\
    (forall i, i < length cut -> q <= length (nth i cut []) < 2 * q) /\
    (* a line has the middle, the percentage of correct words and the width of its bin *)
    (forall i x r mid p wid, nth_error cut i = Some (x :: r) -> nth_error lines i = Some (mid, p, wid) ->
      (mid == (s_conf x + s_conf (last (x :: r) x)) / 2)%Q /\
      (p == part (length (filter (fun y => is_corr (s_eval y)) (x :: r))) (length (x :: r)) * 100)%Q /\
      (wid == s_conf (last (x :: r) x) - s_conf x)%Q).
Proof.
  intros feedback bins sc Hf Hb Hn F q.
  destruct (scaled_ok bins sc Hb Hn (words_said sc)) as (bs & E & P & S & L & A & B).
  exists bs, (map scaled_line bs). split; [|split; [exact P|split; [exact S|split; [apply map_length|
    split; [exact L|split; [exact A|split; [exact B|]]]]]]].
  - unfold make_scaled. assert (feedback && negb (conf_available sc) = false) as ->
      by (destruct Hf as [->| ->]; [reflexivity|apply andb_false_r]).
    rewrite E. reflexivity.
  - intros i x r mid p wid H1 H2. rewrite (map_nth_error _ _ _ H1) in H2. inversion H2 as [H3].
    destruct (nth_error_split _ _ H1) as (b1 & b2 & Eb & _).
    assert (forall l1 l2 : list step, StronglySorted cle (l1 ++ l2) -> StronglySorted cle l1 /\ StronglySorted cle l2) as Sp.
    { clear. induction l1 as [|y l1 IH]; intros l2 H; [split; [constructor|exact H]|].
      cbn [app] in H. inversion H as [|? ? H1 H2]; subst. destruct (IH l2 H1) as [I1 I2].
      apply Forall_app in H2. split; [constructor; [exact I1|apply H2]|exact I2]. }
    change (StronglySorted cle (concat bs)) in S.
    assert (forall y, In y (concat bs) -> -(99999) <= s_conf y <= 99999)%Q as F'.
    { intros y Hy. rewrite Forall_forall in F. apply F. eapply Permutation_in; [exact P|exact Hy]. }
    rewrite Eb, concat_app in S, F'. cbn [concat] in S, F'. apply Sp in S. destruct S as [_ S]. apply Sp in S. destruct S as [S _].
    pose proof (line_ok x r S) as K. rewrite H3 in K. apply K. apply Forall_forall.
    intros y Hy. apply F', in_or_app. right. apply in_or_app. left. exact Hy.
Qed.
Print Assumptions C97_scaled.

(** ** What fails *)
Definition w (e : eval) (c : Q) : step := {| s_eval := e; s_empty := false; s_conf := c |}.
Definition sys (l : list step) : scores := [[{| u_conf := true; u_steps := l |}]].

(** a confidence that is negative by less than the width of a bin is counted in the first bin, and not
    reported *)
Theorem C97_negative_refuted : exists sc h, binned 100 sc = Ok (h, 0) /\ out_of_range sc = 1 /\
  nth_error h 0 = Some (1, 0) /\ bin_correct 100 0 sc = 0.
Proof. exists (sys [w Corr (- (5 # 1000))]). eexists. repeat split; vm_compute; reflexivity. Qed.
Print Assumptions C97_negative_refuted.

(** with fewer words than bins no line is written *)
Theorem C97_few_words_refuted : forall bins sc, length (said sc) < bins -> make_scaled false bins sc = Ok (Some []).
Proof.
  intros bins sc H. unfold make_scaled, scaled_bins. cbn [andb]. rewrite words_said.
  destruct (Nat.eqb_spec bins 0) as [|_]; [lia|].
  rewrite (Permutation_length (sort_perm (said sc))). rewrite Nat.div_small by exact H. reflexivity.
Qed.
Print Assumptions C97_few_words_refuted.

(** and there may be almost twice as many bins as asked for *)
Theorem C97_more_bins_refuted : exists sc lines, make_scaled true 3 sc = Ok (Some lines) /\
  length (said sc) = 5 /\ length lines = 5.
Proof.
  exists (sys [w Corr (1 # 2); w Sub (1 # 3); w Corr (1 # 4); w Ins (1 # 5); w Corr (1 # 6)]).
  eexists. split; [vm_compute; reflexivity|]. split; reflexivity.
Qed.
Print Assumptions C97_more_bins_refuted.

(** *** Concrete cases *)
Definition sysH : scores := sys [w Corr (95 # 100); w Sub (2 # 10); w Del 0; w Corr 1; w Ins (25 # 100)].
Lemma sysH_prob : probabilities sysH.
Proof.
  unfold probabilities. cbn. repeat (constructor; [split; apply Qle_bool_iff; reflexivity|]). constructor.
Qed.
Example sysH_last_bin : bin_correct 10 9 sysH = 2 /\ bin_incorrect 10 2 sysH = 2 /\ out_of_range sysH = 0.
Proof. repeat split; vm_compute; reflexivity. Qed.
Example sysH_binned : exists lines, make_binned true sysH = Ok (Some lines) /\ length lines = 10.
Proof.
  destruct (C97_binned true sysH) as (lines & E & L & _); [right; reflexivity|apply prob_binnable, sysH_prob|].
  exists lines. split; assumption.
Qed.
Example sysH_histogram : exists lines, make_histogram true sysH = Ok (Some lines) /\ length lines = 200.
Proof.
  destruct (C97_histogram true sysH) as (lines & E & L & _); [right; reflexivity|apply prob_binnable, sysH_prob|].
  exists lines. split; assumption.
Qed.
Example sysH_scaled : exists lines, make_scaled true 2 sysH = Ok (Some lines) /\ length lines = 2.
Proof.
  destruct (C97_scaled true 2 sysH) as (cut & lines & E & _ & _ & L & C & _);
    [right; reflexivity|lia|cbn; lia| |exists lines; split; [exact E|rewrite L, C; reflexivity]].
  eapply Forall_impl; [|exact sysH_prob]. intros x [H1 H2]. cbv beta. split; lra.
Qed.
Example out_case : exists sc, binnable 10 sc /\ out_of_range sc = 2.
Proof.
  exists (sys [w Corr 3; w Corr (-2); w Ins 1]). split; [|reflexivity].
  unfold binnable. cbn. repeat (constructor; [split; [split; apply Qle_bool_iff; reflexivity|intros [K1 K2]; revert K1 K2; vm_compute; intros; congruence]|]). constructor.
Qed.
