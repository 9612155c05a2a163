(** Proofs about the sign test and the signed-rank test. *)
From Coq Require Import List Arith ZArith QArith Lia Lqa Bool.
From Verif Require Import Base Order_Model Order_Spec Order_Proofs1 Order_Proofs2 Order_Thm Binom_Model Binom_Spec Binom_Proofs Binom_Thm
  SysTest_Model SysTest_Spec.
Import ListNotations.
Local Open Scope res_scope.
Local Open Scope nat_scope.

Lemma get_app {A} (pre : list A) x suf : get (pre ++ x :: suf) (length pre) = Ok x.
Proof. unfold get. rewrite nth_error_app2 by lia. rewrite Nat.sub_diag. reflexivity. Qed.
Lemma pct_app pre row suf t : t < length row -> pct (pre ++ row :: suf) (length pre) t = Ok (nth t row 0%Z).
Proof. intros H. unfold pct. rewrite get_app. cbn [rbind]. apply get_ok. exact H. Qed.
Lemma app_cons {A} (pre : list A) x suf : pre ++ x :: suf = (pre ++ [x]) ++ suf.
Proof. rewrite <- app_assoc. reflexivity. Qed.
Lemma len_snoc {A} (pre : list A) x : length (pre ++ [x]) = length pre + 1.
Proof. rewrite app_length. reflexivity. Qed.

Lemma sum_loop_ok t : forall suf pre acc, in_table t suf ->
  sum_loop (pre ++ suf) t (length suf) (length pre) acc = Ok (acc + sum_of t suf)%Z.
Proof.
  induction suf as [|row suf IH]; intros pre acc H.
  - cbn. f_equal. unfold sum_of. cbn. lia.
  - cbn [length sum_loop]. rewrite pct_app by (apply H; left; reflexivity). cbn [rbind].
    rewrite app_cons, <- len_snoc with (x := row). rewrite IH by (intros r I; apply H; right; exact I).
    change (sum_of t (row :: suf)) with (nth t row 0%Z + sum_of t suf)%Z. f_equal. lia.
Qed.
Lemma total_ok t pcts : in_table t pcts -> total pcts t = Ok (sum_of t pcts).
Proof. intros H. exact (sum_loop_ok t pcts [] 0%Z H). Qed.

Definition hi (pcts : list (list Z)) (t1 t2 : nat) : nat := if (sum_of t2 pcts <? sum_of t1 pcts)%Z then t1 else t2.
Definition lo (pcts : list (list Z)) (t1 t2 : nat) : nat := if (sum_of t2 pcts <? sum_of t1 pcts)%Z then t2 else t1.
Lemma tptr_ok pcts t1 t2 : in_table t1 pcts -> in_table t2 pcts -> tptr pcts t1 t2 = Ok (hi pcts t1 t2, lo pcts t1 t2).
Proof.
  intros H1 H2. unfold tptr. rewrite !total_ok by assumption. cbn [rbind]. unfold hi, lo.
  destruct (_ <? _)%Z; reflexivity.
Qed.
Lemma hi_in pcts t1 t2 : in_table t1 pcts -> in_table t2 pcts -> in_table (hi pcts t1 t2) pcts.
Proof. unfold hi. destruct (_ <? _)%Z; auto. Qed.
Lemma lo_in pcts t1 t2 : in_table t1 pcts -> in_table t2 pcts -> in_table (lo pcts t1 t2) pcts.
Proof. unfold lo. destruct (_ <? _)%Z; auto. Qed.

Definition cols_diffs (pcts : list (list Z)) (a b : nat) : list Z := diffs (column a pcts) (column b pcts).
Lemma cols_cons row pcts a b : cols_diffs (row :: pcts) a b = (nth a row 0 - nth b row 0)%Z :: cols_diffs pcts a b.
Proof. reflexivity. Qed.
Lemma cols_length pcts a b : length (cols_diffs pcts a b) = length pcts.
Proof. unfold cols_diffs, diffs, column. rewrite map_length, combine_length, !map_length. lia. Qed.

Section Thr.
Variable thr : Z.
Hypothesis thr_pos : (0 <= thr)%Z.

Definition nmore (ds : list Z) := length (filter (fun d => thr <? d)%Z ds).
Definition nless (ds : list Z) := length (filter (fun d => thr <? - d)%Z ds).
Definition nsame (ds : list Z) := length (filter (fun d => Z.abs d <=? thr)%Z ds).

Lemma sign_loop_ok a b : forall suf pre p m e, in_table a suf -> in_table b suf ->
  sign_loop thr (pre ++ suf) a b (length suf) (length pre) p m e
  = Ok (p + nmore (cols_diffs suf a b), m + nless (cols_diffs suf a b), e + nsame (cols_diffs suf a b)).
Proof.
  induction suf as [|row suf IH]; intros pre p m e Ha Hb.
  - cbn. rewrite !Nat.add_0_r. reflexivity.
  - cbn [length sign_loop]. rewrite !pct_app by (apply Ha || apply Hb; left; reflexivity). cbn [rbind].
    rewrite app_cons, <- len_snoc with (x := row). rewrite cols_cons. unfold nmore, nless, nsame. cbn [filter].
    set (x := nth a row 0%Z). set (y := nth b row 0%Z).
    assert (Ha' : in_table a suf) by (intros r I; apply Ha; right; exact I).
    assert (Hb' : in_table b suf) by (intros r I; apply Hb; right; exact I).
    destruct (Z.leb_spec (Z.abs (x - y)) thr); [|destruct (Z.ltb_spec x y)]; rewrite IH by assumption; unfold nmore, nless, nsame;
    destruct (Z.ltb_spec thr (x - y)); destruct (Z.ltb_spec thr (- (x - y))); cbn [length]; try lia;
    match goal with |- Ok (?a, ?b, ?c) = Ok (?a', ?b', ?c') =>
      replace a' with a by lia; replace b' with b by lia; replace c' with c by lia; reflexivity end.
Qed.
Lemma three ds : nmore ds + nless ds + nsame ds = length ds.
Proof.
  unfold nmore, nless, nsame. induction ds as [|d ds IH]; [reflexivity|]. cbn [filter].
  destruct (Z.leb_spec (Z.abs d) thr), (Z.ltb_spec thr d), (Z.ltb_spec thr (- d)); cbn [length]; lia.
Qed.

Lemma signtest_ok pcts t1 t2 zb : in_table t1 pcts -> in_table t2 pcts ->
  let ds := cols_diffs pcts (hi pcts t1 t2) (lo pcts t1 t2) in
  compute_signtest thr pcts t1 t2 zb =
  Ok ((fst (sign_test_analysis (nmore ds) (nless ds) (nsame ds) zb) * (if (hi pcts t1 t2 =? t1)%nat then 1 else -1))%Z,
      snd (sign_test_analysis (nmore ds) (nless ds) (nsame ds) zb)).
Proof.
  intros H1 H2 ds. unfold compute_signtest. rewrite tptr_ok by assumption. cbn [rbind].
  pose proof (sign_loop_ok (hi pcts t1 t2) (lo pcts t1 t2) pcts [] 0 0 0 (hi_in _ _ _ H1 H2) (lo_in _ _ _ H1 H2)) as L.
  cbn [app length] in L. rewrite L. cbn [rbind]. fold ds. rewrite !Nat.add_0_l.
  destruct (sign_test_analysis _ _ _ _) as [r c]. reflexivity.
Qed.

(** the statistic *)
Lemma analysis_small a b z zb : a + b + z <= 20 ->
  (snd (sign_test_analysis a b z zb) == two_sided (a + z / 2) (b + (z / 2 + z mod 2)))%Q.
Proof.
  intros H. pose proof (Nat.div_mod_eq z 2). cbn [snd sign_test_analysis]. cbv zeta. unfold sign_test_analysis. cbn [snd].
  unfold two_sided. destruct (_ =? _) eqn:E; [reflexivity|].
  set (A := a + z / 2). set (B := b + (z / 2 + z mod 2)).
  unfold acc_binomial. rewrite small_n by lia.
  replace (Z.to_nat (Z.of_nat (Nat.min A B) + 1)) with (S (Nat.min A B)) by lia.
  rewrite acc_loop_at_most by lia. reflexivity.
Qed.
Lemma analysis_large a b z zb : 20 < a + b + z -> a + z / 2 <> b + (z / 2 + z mod 2) ->
  (snd (sign_test_analysis a b z zb) < 1 # 20)%Q.
Proof.
  intros H N. pose proof (Nat.div_mod_eq z 2). unfold sign_test_analysis. cbv zeta. cbn [snd].
  destruct (Nat.eqb_spec (a + z / 2) (b + (z / 2 + z mod 2))) as [E|_]; [contradiction|].
  set (A := a + z / 2) in *. set (B := b + (z / 2 + z mod 2)) in *.
  unfold acc_binomial. rewrite large_n by lia. apply normal_tail_small; lia.
Qed.
Lemma analysis_result a b z zb : let rc := sign_test_analysis a b z zb in
  (fst rc <> 0%Z <-> (snd rc < 1 # 20)%Q) /\ (fst rc = 0%Z \/ fst rc = if zb then 1%Z else (-1)%Z).
Proof.
  unfold sign_test_analysis. cbv zeta. cbn [fst snd]. destruct (Qle_bool alpha _) eqn:E.
  - apply Qle_bool_iff in E. unfold alpha in E. split; [|left; reflexivity]. unfold NO_DIFF. split; [congruence|]. lra.
  - assert (~ (alpha <= (if (a + z / 2) =? b + (z / 2 + z mod 2) then 1 else 2 * acc_binomial (Z.of_nat (Nat.min (a + z / 2) (b + (z / 2 + z mod 2)))) (Z.of_nat (a + z / 2 + (b + (z / 2 + z mod 2)))) (1 # 2)))%Q) as K
      by (rewrite <- Qle_bool_iff; congruence).
    unfold alpha in K. unfold TEST_DIFF. split; [|right; destruct zb; reflexivity]. split; [|destruct zb; discriminate].
    intros _. apply Qnot_le_lt. exact K.
Qed.

(** * the signed-rank test *)
Lemma diff_loop_ok a b : forall suf pre, in_table a suf -> in_table b suf ->
  diff_loop (pre ++ suf) a b (length suf) (length pre) = Ok (cols_diffs suf a b).
Proof.
  induction suf as [|row suf IH]; intros pre Ha Hb; [reflexivity|].
  cbn [length diff_loop]. rewrite !pct_app by (apply Ha || apply Hb; left; reflexivity). cbn [rbind].
  rewrite app_cons, <- len_snoc with (x := row).
  rewrite IH by (intros r I; apply Ha || apply Hb; right; exact I). reflexivity.
Qed.

Fixpoint rsum (rs : list Q) (b : bool) (l : list bool) : Q :=
  match rs, l with
  | r :: rs', c :: l' => ((if Bool.eqb b c then r else 0) + rsum rs' b l')%Q
  | _, _ => 0%Q
  end.

Lemma wilcoxon_loop_ok : forall ds rs pd pr alt w, length rs = length ds -> length pr = length pd ->
  let l := for_first thr ds (alt mod 2 =? 0) in
  exists w', wilcoxon_loop thr (pd ++ ds) (pr ++ rs) (length ds) (length pd) alt w = Ok w'
    /\ w_plus w' = w_plus w + tally true l /\ w_minus w' = w_minus w + tally false l
    /\ (w_plus_rank w' == w_plus_rank w + rsum rs true l)%Q /\ (w_minus_rank w' == w_minus_rank w + rsum rs false l)%Q.
Proof.
  induction ds as [|d ds IH]; intros rs pd pr alt w Hl Hp; cbn zeta.
  - destruct rs; [|discriminate]. exists w. cbn. repeat split; auto; try ring; lia.
  - destruct rs as [|r rs]; [discriminate|]. cbn [length] in Hl.
    cbn [length wilcoxon_loop]. rewrite get_app. cbn [rbind]. rewrite <- Hp, get_app. cbn [rbind]. rewrite Hp.
    rewrite (app_cons pd), (app_cons pr), <- (len_snoc pd d).
    assert (Hp' : length (pr ++ [r]) = length (pd ++ [d])) by (rewrite !app_length; cbn; lia).
    cbn [for_first].
    assert (C1 : ((d <? 0) && (thr <? Z.abs d))%Z = (thr <? - d)%Z).
    { destruct (Z.ltb_spec d 0), (Z.ltb_spec thr (Z.abs d)), (Z.ltb_spec thr (- d)); cbn; lia. }
    assert (C2 : ((0 <? d) && (thr <? Z.abs d))%Z = (thr <? d)%Z).
    { destruct (Z.ltb_spec 0 d), (Z.ltb_spec thr (Z.abs d)), (Z.ltb_spec thr d); cbn; lia. }
    rewrite C1, C2. clear C1 C2.
    destruct (Z.ltb_spec thr (- d)) as [A|A]; [|destruct (Z.ltb_spec thr d) as [B|B]; [|]].
    + destruct (IH rs (pd ++ [d]) (pr ++ [r]) alt (add_minus w r) ltac:(lia) Hp') as (w' & -> & P1 & P2 & P3 & P4).
      exists w'. split; [reflexivity|]. cbn [add_minus w_plus w_minus w_plus_rank w_minus_rank] in *.
      change (tally true (false :: ?l)) with (tally true l). change (tally false (false :: ?l)) with (S (tally false l)).
      cbn [rsum Bool.eqb]. repeat split; try lia; lra.
    + destruct (IH rs (pd ++ [d]) (pr ++ [r]) alt (add_plus w r) ltac:(lia) Hp') as (w' & -> & P1 & P2 & P3 & P4).
      exists w'. split; [reflexivity|]. cbn [add_plus w_plus w_minus w_plus_rank w_minus_rank] in *.
      change (tally true (true :: ?l)) with (S (tally true l)). change (tally false (true :: ?l)) with (tally false l).
      cbn [rsum Bool.eqb]. repeat split; try lia; lra.
    + assert (M : ((alt + 1) mod 2 =? 0) = negb (alt mod 2 =? 0)).
      { pose proof (Nat.mod_upper_bound alt 2). rewrite Nat.add_mod by lia.
        destruct (alt mod 2) as [|[|]]; try reflexivity; lia. }
      destruct (alt mod 2 =? 0).
      * destruct (IH rs (pd ++ [d]) (pr ++ [r]) (alt + 1) (add_plus w r) ltac:(lia) Hp') as (w' & -> & P1 & P2 & P3 & P4).
        rewrite M in *.
        exists w'. split; [reflexivity|]. cbn [add_plus w_plus w_minus w_plus_rank w_minus_rank] in *.
        change (tally true (true :: ?l)) with (S (tally true l)). change (tally false (true :: ?l)) with (tally false l).
        cbn [rsum Bool.eqb]. repeat split; try lia; lra.
      * destruct (IH rs (pd ++ [d]) (pr ++ [r]) (alt + 1) (add_minus w r) ltac:(lia) Hp') as (w' & -> & P1 & P2 & P3 & P4).
        rewrite M in *.
        exists w'. split; [reflexivity|]. cbn [add_minus w_plus w_minus w_plus_rank w_minus_rank] in *.
        change (tally true (false :: ?l)) with (tally true l). change (tally false (false :: ?l)) with (S (tally false l)).
        cbn [rsum Bool.eqb]. repeat split; try lia; lra.
Qed.

Lemma for_first_length ds : forall b, length (for_first thr ds b) = length ds.
Proof. induction ds; intros b; cbn [for_first]; [reflexivity|]. destruct (_ <? _)%Z; [|destruct (_ <? _)%Z]; cbn [length]; f_equal; auto. Qed.
Lemma tally_both l : tally true l + tally false l = length l.
Proof. unfold tally. induction l as [|[] l IH]; cbn [filter Bool.eqb length]; lia. Qed.

Lemma for_first_counts ds : forall b,
  tally true (for_first thr ds b) = nmore ds + (if b then (nsame ds + 1) / 2 else nsame ds / 2)
  /\ tally false (for_first thr ds b) = nless ds + (if b then nsame ds / 2 else (nsame ds + 1) / 2).
Proof.
  induction ds as [|d ds IH]; intros b.
  - destruct b; split; reflexivity.
  - cbn [for_first]. unfold nmore, nless, nsame in *. cbn [filter].
    destruct (Z.ltb_spec thr (- d)), (Z.ltb_spec thr d), (Z.leb_spec (Z.abs d) thr); try lia.
    + change (tally true (false :: ?l)) with (tally true l). change (tally false (false :: ?l)) with (S (tally false l)).
      destruct (IH b) as [-> ->]. cbn [length]. split; lia.
    + change (tally true (true :: ?l)) with (S (tally true l)). change (tally false (true :: ?l)) with (tally false l).
      destruct (IH b) as [-> ->]. cbn [length]. split; lia.
    + cbn [length]. set (k := length (filter (fun d => (Z.abs d <=? thr)%Z) ds)) in *.
      assert (K : (S k + 1) / 2 = S (k / 2)) by (replace (S k + 1) with (k + 1 * 2) by lia; rewrite Nat.div_add by lia; lia).
      assert (K' : (S k) / 2 = (k + 1) / 2) by (f_equal; lia). 
      destruct (IH (negb b)) as [E1 E2]. destruct b; cbn [negb] in *.
      * change (tally true (true :: ?l)) with (S (tally true l)). change (tally false (true :: ?l)) with (tally false l).
        rewrite E1, E2, K, K'. split; lia.
      * change (tally true (false :: ?l)) with (tally true l). change (tally false (false :: ?l)) with (S (tally false l)).
        rewrite E1, E2, K, K'. split; lia.
Qed.

(** ranks *)
Lemma rsum_rank_sum all : forall ds rs b l, length rs = length ds -> 
  (forall p, p < length ds -> (nth p rs 0 == mean_rank Increasing (map Z.abs all) (nth p (map Z.abs ds) 0%Z))%Q) ->
  (rsum rs b l == rank_sum all ds b l)%Q.
Proof.
  induction ds as [|d ds IH]; intros rs b l Hl H; destruct rs as [|r rs]; try discriminate; [reflexivity|].
  destruct l as [|c l]; [reflexivity|]. cbn [rsum rank_sum].
  rewrite (IH rs b l). 2: cbn in Hl; lia. 2:{ intros p Hp. apply (H (S p)). cbn. lia. }
  pose proof (H 0 ltac:(cbn; lia)) as H0. cbn [nth map] in H0. destruct (Bool.eqb b c); [rewrite H0|]; reflexivity.
Qed.
Lemma rsum_both : forall rs l, length l = length rs -> (rsum rs true l + rsum rs false l == Order_Thm.qsum rs)%Q.
Proof.
  induction rs as [|r rs IH]; intros l H; destruct l as [|c l]; try discriminate; [reflexivity|].
  cbn [rsum Order_Thm.qsum]. rewrite <- (IH l) by (cbn in H; lia). destruct c; cbn [Bool.eqb]; ring.
Qed.
End Thr.
