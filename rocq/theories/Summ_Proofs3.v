(** Lines of the reports, sums and rounding. *)
From Coq Require Import Setoid Morphisms List ZArith QArith Qround Lqa Lia Arith Bool Permutation Sorted.
From Verif Require Import Base Stats_Spec Order_Model Order_Spec Order_Proofs1 Summ_Model Summ_Spec Summ_Proofs1 Summ_Proofs2.
Import ListNotations.
Local Open Scope nat_scope.

Lemma nq_plus a b : (nq (a + b) == nq a + nq b)%Q.
Proof. unfold nq. rewrite Nat2Z.inj_add, inject_Z_plus. reflexivity. Qed.
Lemma nq_0 : (nq 0 == 0)%Q.
Proof. reflexivity. Qed.
Lemma nq_nonneg n : (0 <= nq n)%Q.
Proof. unfold nq. change 0%Q with (inject_Z 0). rewrite <- Zle_Qle. lia. Qed.
Lemma nq_pos n : 0 < n -> (0 < nq n)%Q.
Proof. intro L. unfold nq. change 0%Q with (inject_Z 0). rewrite <- Zlt_Qlt. lia. Qed.
Lemma nq_eq0 n : Qeq_bool (nq n) 0 = (n =? 0).
Proof.
  destruct (Nat.eqb_spec n 0) as [->|N]; [reflexivity|]. destruct (Qeq_bool (nq n) 0) eqn:E; [|reflexivity].
  apply Qeq_bool_iff in E. pose proof (nq_pos n). assert (0 < nq n)%Q by (apply H; lia). lra.
Qed.
Lemma pct_mul a d : ~ (d == 0)%Q -> (pct a d * d == 100 * a)%Q.
Proof.
  intro N. unfold pct. destruct (Qeq_bool d 0) eqn:E; [apply Qeq_bool_iff in E; contradiction|]. field. exact N.
Qed.
Lemma pct_0 a d : (d == 0)%Q -> pct a d = 0%Q.
Proof. intro N. unfold pct. rewrite (proj2 (Qeq_bool_iff _ _) N). reflexivity. Qed.
Lemma pct_comp a a' d d' : (a == a')%Q -> (d == d')%Q -> (pct a d == pct a' d')%Q.
Proof.
  intros A D. unfold pct. destruct (Qeq_bool d 0) eqn:E.
  - apply Qeq_bool_iff in E. rewrite D in E. rewrite (proj2 (Qeq_bool_iff _ _) E). reflexivity.
  - destruct (Qeq_bool d' 0) eqn:E'; [apply Qeq_bool_iff in E'; rewrite <- D in E'; apply Qeq_bool_iff in E'; congruence|].
    rewrite A, D. reflexivity.
Qed.
Global Instance pct_proper : Proper (Qeq ==> Qeq ==> Qeq) pct.
Proof. intros a a' A d d' D. apply pct_comp; assumption. Qed.
Lemma pct_plus a b d : (pct (a + b) d == pct a d + pct b d)%Q.
Proof. unfold pct. destruct (Qeq_bool d 0) eqn:E; [lra|]. field. intro X. apply Qeq_bool_iff in X. congruence. Qed.
Lemma pct_self d : ~ (d == 0)%Q -> (pct d d == 100)%Q.
Proof. intro N. pose proof (pct_mul d d N) as M. unfold pct in *. destruct (Qeq_bool d 0) eqn:E; [apply Qeq_bool_iff in E; contradiction|]. field. exact N. Qed.

Lemma trunc_int t n : trunc (inject_Z t + nq n) = (t + Z.of_nat n)%Z.
Proof. unfold trunc, nq, inject_Z, Qplus. cbn [Qnum Qden]. change (1 * 1)%positive with 1%positive. rewrite Z.quot_1_r. lia. Qed.
Lemma tot_fold (f : grp -> nat) gs : forall t, fold_left (fun t g => add_int t (nq (f g))) gs t = (t + Z.of_nat (list_sum (map f gs)))%Z.
Proof.
  induction gs as [|g gs IH]; intro t; [cbn; lia|]. cbn [fold_left map]. change (list_sum (f g :: map f gs)) with (f g + list_sum (map f gs)). rewrite IH.
  unfold add_int. rewrite trunc_int. lia.
Qed.
Lemma sum_nat_fold (f : grp -> nat) gs : forall t, fold_left (fun t g => t + f g) gs t = t + list_sum (map f gs).
Proof. induction gs as [|g gs IH]; intro t; [cbn; lia|]. cbn [fold_left map]. change (list_sum (f g :: map f gs)) with (f g + list_sum (map f gs)). rewrite IH. lia. Qed.
Lemma sum_nat_ok f gs : sum_nat f gs = list_sum (map f gs).
Proof. unfold sum_nat. rewrite sum_nat_fold. reflexivity. Qed.
Lemma tot_plain gs c : tot false gs c = Z.of_nat (list_sum (map (fun g => counted g c) gs)).
Proof. unfold tot, amount. rewrite tot_fold. reflexivity. Qed.
Lemma list_sum_plus {A} (f g : A -> nat) l : list_sum (map (fun x => f x + g x) l) = list_sum (map f l) + list_sum (map g l).
Proof. induction l as [|x l IH]; [reflexivity|]. unfold list_sum in *. cbn [map fold_right]. rewrite IH. lia. Qed.
Lemma tot_col_plain gs c : tot_col false gs c = Z.of_nat (list_sum (map (fun g => counted g c) gs)).
Proof.
  destruct c; cbn [tot_col]; rewrite ?tot_plain; try reflexivity. cbn [counted].
  rewrite (list_sum_plus (fun g => g_sub g + g_ins g + g_del g + g_mrg g) (fun g => g_spl g)), (list_sum_plus (fun g => g_sub g + g_ins g + g_del g) (fun g => g_mrg g)),
    (list_sum_plus (fun g => g_sub g + g_ins g) (fun g => g_del g)), (list_sum_plus (fun g => g_sub g) (fun g => g_ins g)), !Nat2Z.inj_add. ring.
Qed.
Definition allrefs (g : grp) : nat := g_sub g + g_corr g + g_del g + g_mrg g + g_spl g.
Lemma tot_ref_plain gs : tot_ref false gs = Z.of_nat (list_sum (map allrefs gs)).
Proof. unfold tot_ref, trefs. exact (tot_fold allrefs gs 0%Z). Qed.
Lemma plain_refs g : plain g -> allrefs g = word_num g.
Proof. intros (A & B). unfold allrefs, word_num. lia. Qed.
Lemma plain_refs_sum gs : Forall plain gs -> list_sum (map allrefs gs) = list_sum (map word_num gs).
Proof. intro F. f_equal. apply map_ext_in. intros g G. apply plain_refs. rewrite Forall_forall in F. apply F, G. Qed.

(** ** the values of a speaker *)
Lemma value_raw weighted g c : value true weighted g c = nq (counted g c).
Proof. reflexivity. Qed.
Lemma value_words g c : 0 < allrefs g -> value false false g c = pct (nq (counted g c)) (nq (allrefs g)).
Proof.
  intro P. unfold value, trefs. cbn [orb]. fold (allrefs g). rewrite nq_eq0. destruct (Nat.eqb_spec (allrefs g) 0); [lia|reflexivity].
Qed.
Lemma value_none g c : allrefs g = 0 -> value false false g c = nq (counted g c).
Proof. intro P. unfold value, trefs. cbn [orb]. fold (allrefs g). rewrite nq_eq0, P. reflexivity. Qed.

Lemma nth_cells do_sm raw weighted g k : k < length (row do_sm) ->
  cell k (speaker_line do_sm raw weighted g) = value raw weighted g (nth k (row do_sm) Corr).
Proof.
  intro K. unfold cell, speaker_line. cbn [l_cells]. rewrite (nth_indep _ _ (value raw weighted g Corr)) by (rewrite map_length; exact K).
  apply map_nth.
Qed.
Lemma nth_sum do_sm raw weighted gs k : k < length (row do_sm) ->
  cell k (sum_line do_sm raw weighted gs) =
  (let c := nth k (row do_sm) Corr in if raw then inject_Z (tot_col weighted gs c) else pct (inject_Z (tot_col weighted gs c)) (inject_Z (tot_ref weighted gs))).
Proof.
  intro K. unfold cell, sum_line. cbn [l_cells].
  set (f := fun c => if raw then inject_Z (tot_col weighted gs c) else pct (inject_Z (tot_col weighted gs c)) (inject_Z (tot_ref weighted gs))).
  rewrite (nth_indep _ _ (f Corr)) by (rewrite map_length; exact K). apply (map_nth f).
Qed.
Lemma row_titles do_sm : row do_sm = titles do_sm.
Proof. reflexivity. Qed.
Lemma star_iff do_sm raw weighted g : l_star (speaker_line do_sm raw weighted g) = negb raw && (word_num g =? 0).
Proof. cbn [speaker_line l_star]. rewrite no_words_worded, word_num_worded, negb_involutive. reflexivity. Qed.

Lemma qtotal_cons x l : qtotal (x :: l) = (x + qtotal l)%Q.
Proof. reflexivity. Qed.
Lemma raw_column do_sm weighted gs k : k < length (row do_sm) ->
  (qtotal (map (cell k) (map (speaker_line do_sm true weighted) gs)) == nq (list_sum (map (fun g => counted g (nth k (row do_sm) Corr)) gs)))%Q.
Proof.
  intro K. induction gs as [|g gs IH]; [reflexivity|]. cbn [map]. rewrite qtotal_cons, IH. rewrite nth_cells by exact K. rewrite value_raw.
  change (list_sum (counted g (nth k (row do_sm) Corr) :: map (fun g0 => counted g0 (nth k (row do_sm) Corr)) gs))
    with (counted g (nth k (row do_sm) Corr) + list_sum (map (fun g0 => counted g0 (nth k (row do_sm) Corr)) gs)).
  rewrite nq_plus. reflexivity.
Qed.
Lemma pct_column do_sm gs k : Forall plain gs -> k < length (row do_sm) ->
  let ls := map (speaker_line do_sm false false) gs in
  (qtotal (map (fun l => cell k l * nq (l_wrd l)) (with_words ls)) + 100 * qtotal (map (cell k) (without_words ls)) ==
   100 * nq (list_sum (map (fun g => counted g (nth k (row do_sm) Corr)) gs)))%Q.
Proof.
  intros F K. cbv zeta. induction gs as [|g gs IH]; [reflexivity|]. inversion F; subst. specialize (IH H2). cbn [map].
  unfold with_words, without_words in *. cbn [filter]. rewrite star_iff. cbn [negb andb].
  change (list_sum (counted g (nth k (row do_sm) Corr) :: map (fun g0 => counted g0 (nth k (row do_sm) Corr)) gs))
    with (counted g (nth k (row do_sm) Corr) + list_sum (map (fun g0 => counted g0 (nth k (row do_sm) Corr)) gs)).
  rewrite nq_plus. destruct (Nat.eqb_spec (word_num g) 0) as [W|W]; cbn [negb map]; rewrite qtotal_cons, nth_cells by exact K.
  - rewrite value_none by (rewrite plain_refs by assumption; exact W). lra.
  - change (l_wrd (speaker_line do_sm false false g)) with (word_num g). rewrite value_words by (rewrite plain_refs by assumption; lia).
    rewrite (plain_refs g) by assumption. rewrite pct_mul by (pose proof (nq_pos (word_num g)); intro; assert (0 < nq (word_num g))%Q by (apply H; lia); lra). lra.
Qed.

(** ** rounding *)
Lemma trunc_pos y : (0 <= y)%Q -> trunc y = Qfloor y.
Proof.
  intro P. unfold trunc, Qfloor. destruct y as [n d]. cbn [Qnum Qden]. unfold Qle in P. cbn [Qnum Qden] in P.
  apply Z.quot_div_nonneg; lia.
Qed.
Lemma trunc_neg y : trunc (- y) = (- trunc y)%Z.
Proof. unfold trunc. destruct y as [n d]. cbn [Qopp Qnum Qden]. apply Z.quot_opp_l. lia. Qed.
Lemma trunc_comp x y : (x == y)%Q -> trunc x = trunc y.
Proof.
  intro E. destruct (Qlt_le_dec x 0) as [L|L].
  - assert (trunc (- x) = trunc (- y)). { rewrite !trunc_pos by lra. apply Qfloor_comp. rewrite E. reflexivity. }
    rewrite !trunc_neg in H. lia.
  - rewrite !trunc_pos by lra. apply Qfloor_comp, E.
Qed.
Lemma trunc_bounds y : (0 <= y)%Q -> (inject_Z (trunc y) <= y)%Q /\ (y < inject_Z (trunc y) + 1)%Q /\ (0 <= trunc y)%Z.
Proof.
  intro P. rewrite trunc_pos by exact P. split; [apply Qfloor_le|]. split.
  - pose proof (Qlt_floor y) as L. rewrite inject_Z_plus in L. exact L.
  - change 0%Z with (Qfloor 0). apply Qfloor_resp_le. exact P.
Qed.
Lemma round_bounds (y : Q) (b : bool) t : t = trunc (y + (if b then - (1 # 2) else 1 # 2)) -> b = Qle_bool y 0 ->
  (inject_Z t - y <= 1 # 2)%Q /\ (- (1 # 2) <= inject_Z t - y)%Q /\
  ((0 <= y)%Q -> (0 <= t)%Z) /\ ((y <= 0)%Q -> (t <= 0)%Z) /\
  ((0 < y)%Q -> (- (1 # 2) < inject_Z t - y)%Q) /\ ((y < 0)%Q -> (inject_Z t - y < 1 # 2)%Q).
Proof.
  intros T B. destruct b.
  - symmetry in B. apply Qle_bool_iff in B.
    assert (TN : t = (- trunc (- y + (1 # 2)))%Z). { rewrite T, <- trunc_neg. apply trunc_comp. lra. }
    destruct (trunc_bounds (- y + (1 # 2))) as (U1 & U2 & U3); [lra|]. set (w := trunc (- y + (1 # 2))) in *.
    rewrite TN. rewrite inject_Z_opp.
    repeat split; try lra.
    + intro Y. assert (W : (inject_Z w < inject_Z 1)%Q) by (change (inject_Z 1) with 1%Q; lra). rewrite <- Zlt_Qlt in W. lia.
    + intro Y. lia.
  - assert (P : (0 < y)%Q). { apply Qnot_le_lt. intro L. apply Qle_bool_iff in L. congruence. }
    destruct (trunc_bounds (y + (1 # 2))) as (U1 & U2 & U3); [lra|]. rewrite <- T in *.
    repeat split; try lra; try (intros; lia); intro; lra.
Qed.

Lemma half u : (u / 2 == (1 # 2) * u)%Q.
Proof. field. Qed.
Lemma scale u d : (0 < u)%Q -> ((- (1 # 2) <= d) -> - (u / 2) <= d * u)%Q /\ ((d <= 1 # 2) -> d * u <= u / 2)%Q /\
  ((- (1 # 2) < d) -> - (u / 2) < d * u)%Q /\ ((d < 1 # 2) -> d * u < u / 2)%Q.
Proof. intro U. rewrite half. repeat split; intro D; nra. Qed.
Lemma f_round_ok x p : (- inject_Z (2 ^ 31 - 2) <= x * inject_Z (10 ^ Z.of_nat p) <= inject_Z (2 ^ 31 - 2))%Q ->
  exists r, f_round x p = Ok r /\ rounded p x r.
Proof.
  intros (LO & HI). unfold f_round. cbv zeta. set (s := inject_Z (10 ^ Z.of_nat p)) in *.
  assert (SP : (0 < s)%Q). { unfold s. change 0%Q with (inject_Z 0). rewrite <- Zlt_Qlt. apply Z.pow_pos_nonneg; lia. }
  assert (BE : Qle_bool x 0 = Qle_bool (x * s) 0).
  { destruct (Qle_bool x 0) eqn:E.
    - apply Qle_bool_iff in E. symmetry. apply Qle_bool_iff. nra.
    - destruct (Qle_bool (x * s) 0) eqn:E'; [|reflexivity]. apply Qle_bool_iff in E'.
      assert (~ (x <= 0)%Q) by (intro X; apply Qle_bool_iff in X; congruence). nra. }
  remember (trunc (x * s + (if Qle_bool x 0 then - (1 # 2) else 1 # 2))) as t eqn:T. rewrite BE in T.
  destruct (round_bounds (x * s) _ t T eq_refl) as (A & B & C & D & E & F).
  assert (I : in_int t = true).
  { assert (K1 : (inject_Z (2 ^ 31 - 1) == inject_Z (2 ^ 31 - 2) + 1)%Q) by reflexivity.
    assert (K2 : (inject_Z (- (2 ^ 31 - 1)) == - inject_Z (2 ^ 31 - 2) - 1)%Q) by reflexivity.
    assert (X1 : (inject_Z t < inject_Z (2 ^ 31 - 1))%Q) by (rewrite K1; lra).
    assert (X2 : (inject_Z (- (2 ^ 31 - 1)) < inject_Z t)%Q) by (rewrite K2; lra).
    rewrite <- Zlt_Qlt in X1, X2. unfold in_int. apply andb_true_iff. split; [apply Z.leb_le|apply Z.ltb_lt]; lia. }
  rewrite I. eexists. split; [reflexivity|]. unfold rounded. fold s. cbv zeta.
  assert (S0 : ~ (s == 0)%Q) by lra.
  assert (RX : (inject_Z t / s - x == (inject_Z t - x * s) * (1 / s))%Q) by (field; exact S0).
  assert (UP : (0 < 1 / s)%Q) by (apply Qlt_shift_div_l; lra).
  set (u := (1 / s)%Q) in *.
  split; [exists t; unfold u; field; exact S0|]. rewrite RX.
  assert (XS : (x == x * s * u)%Q) by (unfold u; field; exact S0).
  assert (RT : (inject_Z t / s == inject_Z t * u)%Q) by (unfold u; field; exact S0).
  clear I T BE LO HI. clearbody u s. destruct (scale u (inject_Z t - x * s) UP) as (K1 & K2 & K3 & K4).
  repeat split.
  - apply K1, B.
  - apply K2, A.
  - intro P. rewrite RT. assert (Z0 : (0 <= t)%Z) by (apply C; nra). assert (0 <= inject_Z t)%Q by (change 0%Q with (inject_Z 0); rewrite <- Zle_Qle; exact Z0). nra.
  - intro P. rewrite RT. assert (Z0 : (t <= 0)%Z) by (apply D; nra). assert (inject_Z t <= 0)%Q by (change 0%Q with (inject_Z 0); rewrite <- Zle_Qle; exact Z0). nra.
  - intro P. apply K3, E. nra.
  - intro P. apply K4, F. nra.
Qed.
