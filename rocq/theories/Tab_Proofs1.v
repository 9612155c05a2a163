(** Lemmas for the texts of the tables. *)
From Coq Require Import String List ZArith NArith Arith Bool QArith Lia Lqa.
From Verif Require Import Base Store_Model Sgml_Model Stats_Model Pad_Model Pad_Spec Pad_Thm Rep_Model Tab_Model Tab_Spec.
From Verif Require Sgml_Proofs1 AsStm_Proofs2.
Import ListNotations.
Local Open Scope nat_scope.
Local Notation length := List.length.

(** ** Digits *)
Lemma value_from (s : str) : forall a, fold_left (fun a c => a * 10 + (c - 48))%N s a = (a * 10 ^ N.of_nat (length s) + value s)%N.
Proof.
  unfold value. induction s as [|c s IH]; intros a; cbn [fold_left length]; [cbn; lia|]. rewrite IH, (IH (0 * 10 + _)%N).
  rewrite Nat2N.inj_succ, N.pow_succ_r'. set (p := (10 ^ N.of_nat (length s))%N). clearbody p. nia.
Qed.
Lemma value_lt (s : str) : Forall digit s -> (value s < 10 ^ N.of_nat (length s))%N.
Proof.
  induction 1 as [|c s D F IH]; [cbn; lia|]. unfold value. cbn [fold_left length]. rewrite value_from, Nat2N.inj_succ, N.pow_succ_r'. unfold digit in D.
  set (p := (10 ^ N.of_nat (length s))%N) in *. clearbody p. nia.
Qed.
Lemma decimal_low n s : decimal n s -> 1 < length s -> (10 ^ N.of_nat (length s - 1) <= n)%N.
Proof.
  intros (F & V & _ & Z) L. specialize (Z L). destruct s as [|c s]; [cbn in L; lia|]. cbn [hd] in Z. apply Forall_inv in F. unfold digit in F.
  rewrite <- V. unfold value. cbn [fold_left length]. rewrite value_from. replace (S (length s) - 1) with (length s) by lia.
  set (p := (10 ^ N.of_nat (length s))%N). clearbody p. nia.
Qed.
Lemma decimal_length n s k : decimal n s -> (n < 10 ^ N.of_nat k)%N -> 1 <= k -> length s <= k.
Proof.
  intros D H K. destruct (le_lt_dec (length s) k) as [L|L]; [exact L|exfalso]. pose proof (decimal_low n s D ltac:(lia)) as G.
  assert ((10 ^ N.of_nat k <= 10 ^ N.of_nat (length s - 1))%N) by (apply N.pow_le_mono_r; lia). lia.
Qed.
Lemma nat_text_decimal n : decimal n (nat_text n).
Proof.
  destruct (Sgml_Proofs1.nat_text_ok n) as (V & F & NE). split; [exact F|]. split; [exact V|]. split; [destruct (nat_text n); [congruence|cbn; lia]|].
  intros L. assert (P : (0 < n)%N). { destruct (N.eq_dec n 0) as [->|]; [cbn in L; lia|lia]. } apply AsStm_Proofs2.digits_head; [apply Sgml_Proofs1.size_bound|exact P].
Qed.
Lemma int_count n : shows_count n (int n).
Proof.
  unfold shows_count, int, int_text. replace (Z.of_nat n <? 0)%Z with false by (symmetry; apply Z.ltb_ge; lia). cbn [app].
  replace (Z.abs_N (Z.of_nat n)) with (N.of_nat n) by lia. apply nat_text_decimal.
Qed.
Lemma fixed_point p z : point p z (fixed p z).
Proof.
  unfold fixed. cbv zeta. set (P := (10 ^ N.of_nat p)%N). assert (HP : P <> 0%N) by (apply N.pow_nonzero; lia).
  destruct (Sgml_Proofs1.frac_ok p (Z.abs_N z mod P)%N (Z.abs_N z / P)%N (N.mod_lt _ _ HP)) as (V & F & L).
  exists (nat_text (Z.abs_N z / P)), (frac p (Z.abs_N z mod P)), (Z.abs_N z / P)%N. split; [reflexivity|]. split; [apply nat_text_decimal|]. split; [exact F|]. split; [exact L|].
  unfold value. rewrite fold_left_app. change (fold_left _ (nat_text (Z.abs_N z / P)) 0%N) with (value (nat_text (Z.abs_N z / P))).
  rewrite (proj1 (proj2 (nat_text_decimal _))). unfold Sgml_Proofs1.value in V. rewrite V. fold P. pose proof (N.div_mod (Z.abs_N z) P HP) as E. rewrite N.mul_comm in E. symmetry. exact E.
Qed.
Lemma point_length p z s k : point p z s -> (Z.abs z < 10 ^ Z.of_nat (p + k))%Z -> 1 <= k -> length s <= (if (z <? 0)%Z then 1 else 0) + k + 1 + p.
Proof.
  intros (a & b & n & -> & D & F & L & V) B K. rewrite !app_length, L. cbn [length].
  assert (length a <= k).
  { apply (decimal_length n); [exact D| |exact K]. unfold value in V. rewrite fold_left_app in V. change (fold_left _ a 0%N) with (value a) in V. rewrite (proj1 (proj2 D)), value_from, L in V.
    assert (H : (Z.abs_N z < 10 ^ N.of_nat (p + k))%N). { apply N2Z.inj_lt. rewrite N2Z.inj_abs_N, N2Z.inj_pow, nat_N_Z. exact B. }
    rewrite <- V in H. rewrite Nat2N.inj_add, N.pow_add_r in H. set (x := (10 ^ N.of_nat p)%N) in *. assert (x <> 0)%N by (apply N.pow_nonzero; lia). clearbody x. set (y := (10 ^ N.of_nat k)%N) in *. clearbody y. nia. }
  destruct (z <? 0)%Z; cbn [length]; lia.
Qed.

(** ** Rounding *)
Lemma trunc_up (x : Q) : (0 <= x)%Q -> (inject_Z (trunc x) <= x /\ x < inject_Z (trunc x) + 1)%Q.
Proof.
  unfold trunc, Qle, Qlt, inject_Z, Qplus. destruct x as [n d]. cbn. intros H. assert (0 <= n)%Z by lia. rewrite Z.quot_div_nonneg by lia.
  pose proof (Z.div_mod n (Zpos d) ltac:(lia)). pose proof (Z.mod_pos_bound n (Zpos d) ltac:(lia)). split; nia.
Qed.
Lemma trunc_opp x : trunc (- x) = (- trunc x)%Z.
Proof. unfold trunc. destruct x as [n d]. cbn [Qopp Qnum Qden]. rewrite Z.quot_opp_l by lia. reflexivity. Qed.
Lemma trunc_down (x : Q) : (x <= 0)%Q -> (inject_Z (trunc x) - 1 < x /\ x <= inject_Z (trunc x))%Q.
Proof.
  intros H. destruct (trunc_up (- x) ltac:(lra)) as (A & B). rewrite trunc_opp, inject_Z_opp in A, B. split; lra.
Qed.
Lemma trunc_int x n : (x == inject_Z n)%Q -> (0 <= n)%Z -> trunc x = n.
Proof.
  intros E N. assert (P : (0 <= x)%Q). { rewrite E. change 0%Q with (inject_Z 0). rewrite <- Zle_Qle. exact N. }
  destruct (trunc_up x P) as (A0 & B0).
  assert (A : (inject_Z (trunc x) <= inject_Z n)%Q) by lra. assert (B : (inject_Z n < inject_Z (trunc x) + inject_Z 1)%Q) by (change (inject_Z 1) with 1%Q; lra).
  rewrite <- Zle_Qle in A. rewrite <- inject_Z_plus, <- Zlt_Qlt in B. lia.
Qed.
Section Junk.
Variable junk : Z.
Lemma to_int_in z : (- 2 ^ 31 <= z < 2 ^ 31)%Z -> to_int junk z = z.
Proof. intros H. unfold to_int. replace ((_ <=? z) && (z <? _))%Z with true; [reflexivity|]. symmetry. apply andb_true_iff. rewrite Z.leb_le, Z.ltb_lt. exact H. Qed.
Definition scale (p : nat) : Z := (10 ^ Z.of_nat p)%Z.
Lemma scale_pos p : (1 <= scale p)%Z.
Proof. unfold scale. pose proof (Z.pow_pos_nonneg 10 (Z.of_nat p) ltac:(lia) ltac:(lia)). lia. Qed.
Lemma rounding p x b : (0 <= b)%Z -> within x (inject_Z b) -> (b * scale p + 1 < 2 ^ 31)%Z ->
  nearest p x (f_round junk p x) /\ (Z.abs (f_round junk p x) <= b * scale p)%Z.
Proof.
  intros B (L & U) R. unfold f_round. fold (scale p). set (y := (x * inject_Z (scale p))%Q). pose proof (scale_pos p) as SP. unfold nearest. fold (scale p). cbv zeta. fold y.
  assert (SQ : (1 <= inject_Z (scale p))%Q) by (change 1%Q with (inject_Z 1); rewrite <- Zle_Qle; exact SP).
  assert (HI : (inject_Z (b * scale p) == inject_Z b * inject_Z (scale p))%Q) by (rewrite inject_Z_mult; reflexivity).
  assert (YU : (y <= inject_Z (b * scale p))%Q) by (rewrite HI; unfold y; nra). assert (YL : (- inject_Z (b * scale p) <= y)%Q) by (rewrite HI; unfold y; nra).
  destruct (Qle_bool x 0) eqn:E.
  - apply Qle_bool_iff in E. assert (Y0 : (y <= 0)%Q) by (unfold y; nra). set (z := trunc (y + - (1 # 2))). destruct (trunc_down (y + - (1 # 2)) ltac:(lra)) as (A1 & A2). fold z in A1, A2.
    assert (ZB : (- (b * scale p) <= z <= 0)%Z).
    { split; [|unfold z; rewrite <- (Z.opp_involutive (trunc _)), <- trunc_opp; destruct (trunc_up (- (y + - (1#2))) ltac:(lra)) as (C1 & C2);
        assert (0 <= trunc (- (y + - (1 # 2))))%Z; [|lia]; apply Z.lt_succ_r; unfold Z.succ; rewrite Zlt_Qlt, inject_Z_plus; change (inject_Z 0) with 0%Q; change (inject_Z 1) with 1%Q; lra].
      apply Z.lt_succ_r. unfold Z.succ. rewrite Zlt_Qlt, inject_Z_plus, inject_Z_opp. change (inject_Z 1) with 1%Q. lra. }
    rewrite to_int_in by lia. split; [|lia]. split.
    + intros X0. assert (Y1 : (y == 0)%Q) by (unfold y; assert (x == 0)%Q as -> by lra; ring). assert (z = 0)%Z as ->.
      { assert (-1 < z)%Z; [|lia]. rewrite Zlt_Qlt. change (inject_Z (-1)) with (-(1))%Q. lra. }
      change (inject_Z 0) with 0%Q. lra.
    + intros _. split; lra.
  - assert (X0 : (0 < x)%Q). { destruct (Qlt_le_dec 0 x) as [G|G]; [exact G|]. apply Qle_bool_iff in G. congruence. }
    assert (Y0 : (0 <= y)%Q) by (unfold y; nra). set (z := trunc (y + (1 # 2))). destruct (trunc_up (y + (1 # 2)) ltac:(lra)) as (A1 & A2). fold z in A1, A2.
    assert (ZB : (0 <= z <= b * scale p)%Z).
    { split.
      - apply Z.lt_succ_r. unfold Z.succ. rewrite Zlt_Qlt, inject_Z_plus. change (inject_Z 0) with 0%Q. change (inject_Z 1) with 1%Q. lra.
      - apply Z.lt_succ_r. unfold Z.succ. rewrite Zlt_Qlt, inject_Z_plus. change (inject_Z 1) with 1%Q. lra. }
    rewrite to_int_in by lia. split; [|lia]. split; [intros _; split; lra|intros; lra].
Qed.
Lemma real_shows p x b : (0 <= b)%Z -> within x (inject_Z b) -> (b * scale p + 1 < 2 ^ 31)%Z -> shows p x (real junk p x).
Proof. intros B W R. exists (f_round junk p x). split; [apply (rounding p x b B W R)|apply fixed_point]. Qed.
Lemma real_length p x b k : (0 <= b)%Z -> within x (inject_Z b) -> (b * scale p + 1 < 2 ^ 31)%Z -> (b < 10 ^ Z.of_nat k)%Z -> 1 <= k ->
  length (real junk p x) <= k + 2 + p /\ ((0 <= x)%Q -> length (real junk p x) <= k + 1 + p).
Proof.
  intros B W R K K1. destruct (rounding p x b B W R) as (NR & A). pose proof (scale_pos p) as SP.
  assert (H : (Z.abs (f_round junk p x) < 10 ^ Z.of_nat (p + k))%Z).
  { rewrite Nat2Z.inj_add, Z.pow_add_r by lia. fold (scale p). nia. }
  pose proof (point_length p _ _ k (fixed_point p _) H K1) as L. fold (real junk p x) in L. split; [destruct (f_round junk p x <? 0)%Z; lia|].
  intros X. destruct (Z.ltb_spec (f_round junk p x) 0) as [N|N]; [|lia]. exfalso. destruct NR as (NR & _). destruct (NR X) as (NR1 & NR2).
  assert (f_round junk p x <= -1)%Z by lia. rewrite Zle_Qle in H0. change (inject_Z (-1)) with (-(1))%Q in H0.
  assert (0 <= x * inject_Z (10 ^ Z.of_nat p))%Q. { apply Qmult_le_0_compat; [exact X|]. change 0%Q with (inject_Z 0). rewrite <- Zle_Qle. fold (scale p). lia. } lra.
Qed.
(** roots *)
Lemma sqrt_round v : (0 <= v)%Q -> let z := ((Z.sqrt (trunc (v * 4)) + 1) / 2)%Z in
  (0 <= z)%Z /\ ((1 <= z)%Z -> (inject_Z z - (1 # 2)) * (inject_Z z - (1 # 2)) <= v)%Q /\ (v < (inject_Z z + (1 # 2)) * (inject_Z z + (1 # 2)))%Q.
Proof.
  intros V z. destruct (trunc_up (v * 4) ltac:(lra)) as (A & B). set (n := trunc (v * 4)) in *.
  assert (N0 : (0 <= n)%Z). { apply Z.lt_succ_r. unfold Z.succ. rewrite Zlt_Qlt, inject_Z_plus. change (inject_Z 0) with 0%Q. change (inject_Z 1) with 1%Q. lra. }
  pose proof (Z.sqrt_spec n N0) as (S1 & S2). pose proof (Z.sqrt_nonneg n) as S0. set (r := Z.sqrt n) in *. clearbody r n.
  assert (D : (2 * z <= r + 1 < 2 * z + 2)%Z).
  { unfold z. pose proof (Z.div_mod (r + 1) 2 ltac:(lia)). pose proof (Z.mod_pos_bound (r + 1) 2 ltac:(lia)). lia. }
  clearbody z. split; [lia|]. split.
  - intros Z1. assert (G : ((2 * z - 1) * (2 * z - 1) <= n)%Z) by nia. rewrite Zle_Qle, inject_Z_mult in G. unfold Zminus in G. rewrite !inject_Z_plus, !inject_Z_mult in G.
    change (inject_Z 2) with 2%Q in G. change (inject_Z (-(1))) with (-(1))%Q in G. nra.
  - assert (G : (n + 1 <= (2 * z + 1) * (2 * z + 1))%Z) by nia. rewrite Zle_Qle, inject_Z_plus, inject_Z_mult, !inject_Z_plus, !inject_Z_mult in G.
    change (inject_Z 2) with 2%Q in G. change (inject_Z 1) with 1%Q in G. nra.
Qed.
Lemma root_ok p v b k : (0 <= v)%Q -> (v <= inject_Z b * inject_Z b)%Q -> (0 <= b)%Z -> (b * scale p + 1 < 2 ^ 31)%Z -> (b < 10 ^ Z.of_nat k)%Z -> 1 <= k ->
  shows_root p v (root junk p (Some v)) /\ length (root junk p (Some v)) <= k + 1 + p.
Proof.
  intros V U B R K K1. unfold root. set (y := (v * inject_Z (100 ^ Z.of_nat p))%Q).
  assert (E100 : (100 ^ Z.of_nat p = scale p * scale p)%Z). { unfold scale. rewrite <- Z.pow_mul_l. reflexivity. }
  pose proof (scale_pos p) as SP. assert (SQ : (1 <= inject_Z (scale p))%Q) by (change 1%Q with (inject_Z 1); rewrite <- Zle_Qle; exact SP).
  assert (Y0 : (0 <= y)%Q). { unfold y. rewrite E100, inject_Z_mult. apply Qmult_le_0_compat; [exact V|nra]. }
  assert (T : trunc (v * inject_Z (4 * 100 ^ Z.of_nat p)) = trunc (y * 4)).
  { assert (E : (v * inject_Z (4 * 100 ^ Z.of_nat p) == y * 4)%Q) by (unfold y; rewrite inject_Z_mult; change (inject_Z 4) with 4%Q; ring).
    assert (P1 : (0 <= y * 4)%Q) by lra. assert (P2 : (0 <= v * inject_Z (4 * 100 ^ Z.of_nat p))%Q) by (rewrite E; exact P1).
    destruct (trunc_up _ P1) as (A1 & A2). destruct (trunc_up _ P2) as (B1 & B2). apply Z.le_antisymm; apply Z.lt_succ_r; unfold Z.succ; rewrite Zlt_Qlt, inject_Z_plus; change (inject_Z 1) with 1%Q; lra. }
  rewrite T. destruct (sqrt_round y Y0) as (Z0 & ZL & ZU). set (z := ((Z.sqrt (trunc (y * 4)) + 1) / 2)%Z) in *. clearbody z.
  assert (ZB : (z <= b * scale p)%Z).
  { destruct (Z_le_gt_dec z (b * scale p)) as [G|G]; [exact G|exfalso]. specialize (ZL ltac:(lia)). assert (G' : (b * scale p + 1 <= z)%Z) by lia. rewrite Zle_Qle, inject_Z_plus, inject_Z_mult in G'. change (inject_Z 1) with 1%Q in G'.
    assert (YB : (y <= (inject_Z b * inject_Z (scale p)) * (inject_Z b * inject_Z (scale p)))%Q).
    { unfold y. rewrite E100, inject_Z_mult. set (s := inject_Z (scale p)) in *. set (c := inject_Z b) in *. assert (v * (s * s) <= c * c * (s * s))%Q; [apply Qmult_le_compat_r; [exact U|nra]|]. lra. }
    assert (B' : (0 <= inject_Z b)%Q) by (change 0%Q with (inject_Z 0); rewrite <- Zle_Qle; exact B). assert (C0 : (0 <= inject_Z b * inject_Z (scale p))%Q) by (apply Qmult_le_0_compat; [exact B'|lra]).
    set (c := (inject_Z b * inject_Z (scale p))%Q) in *. set (x := inject_Z z) in *. clearbody c x y. nra. }
  rewrite to_int_in by lia. split.
  - exists z. split; [exact Z0|]. split; [apply fixed_point|]. cbv zeta. fold y. split; assumption.
  - pose proof (point_length p z _ k (fixed_point p z)) as L. destruct (Z.ltb_spec z 0) as [N|N]; [lia|]. cbn [Nat.add] in L. apply L; [|exact K1]. rewrite Nat2Z.inj_add, Z.pow_add_r by lia. fold (scale p). nia.
Qed.
End Junk.
