(** The statistic. *)
From Coq Require Import List ZArith QArith NArith Lia Lqa Arith Bool Permutation.
From Verif Require Import Base Order_Model Order_Proofs1 Summ_Model Summ_Proofs1 Rank_Model Rank_Spec Rank_Proofs1 Rank_Proofs2 Rank_Thm
  Anovar_Model Anovar_Spec Anovar_Proofs1 Anovar_Proofs2.
Import ListNotations.
Local Open Scope nat_scope.

(** ** sums of fractions *)
Lemma sum_cons x l : (sum (x :: l) == x + sum l)%Q.
Proof. reflexivity. Qed.
Lemma sum_ext {A} (f g : A -> Q) l : (forall x, In x l -> (f x == g x)%Q) -> (sum (map f l) == sum (map g l))%Q.
Proof.
  induction l as [|x l IH]; intro H; [reflexivity|]. cbn [map]. rewrite !sum_cons, (H x) by (left; reflexivity).
  rewrite IH by (intros y Y; apply H; right; exact Y). reflexivity.
Qed.
Lemma sum_plus {A} (f g : A -> Q) l : (sum (map (fun x => f x + g x) l) == sum (map f l) + sum (map g l))%Q.
Proof. induction l as [|x l IH]; [reflexivity|]. cbn [map]. rewrite !sum_cons, IH. ring. Qed.
Lemma sum_scale {A} c (f : A -> Q) l : (sum (map (fun x => c * f x) l) == c * sum (map f l))%Q.
Proof. induction l as [|x l IH]; [cbn [map]; change (sum []) with 0%Q; ring|]. cbn [map]. rewrite !sum_cons, IH. ring. Qed.
Lemma sum_constant {A} (c : Q) (l : list A) : (sum (map (fun _ => c) l) == q (length l) * c)%Q.
Proof.
  induction l as [|x l IH]; [cbn [map length]; change (sum []) with 0%Q; change (q 0) with 0%Q; ring|]. cbn [map length]. rewrite sum_cons, IH. unfold q. rewrite Nat2Z.inj_succ, <- Z.add_1_r, inject_Z_plus.
  change (inject_Z 1) with 1%Q. ring.
Qed.
Lemma sum_swap {A B} (f : A -> B -> Q) la lb :
  (sum (map (fun a => sum (map (f a) lb)) la) == sum (map (fun b => sum (map (fun a => f a b) la)) lb))%Q.
Proof.
  induction la as [|a la IH]; cbn [map].
  - change (sum []) with 0%Q. rewrite sum_constant. ring.
  - rewrite sum_cons, IH. rewrite <- sum_plus. apply sum_ext. intros b _. rewrite sum_cons. reflexivity.
Qed.
Lemma sum_inject l : (sum (map inject_Z l) == inject_Z (zsum l))%Q.
Proof. induction l as [|x l IH]; [reflexivity|]. cbn [map]. rewrite sum_cons, zsum_cons, IH, inject_Z_plus. reflexivity. Qed.
Lemma sum_row (f : Q -> Q) row m : length row = m -> sum (map f row) = sum (map (fun j => f (nth j row 0%Q)) (seq 0 m)).
Proof. intros <-. rewrite <- (map_nth_seq row 0%Q) at 1. rewrite map_map. reflexivity. Qed.
Lemma sum_rows (f : list Q -> Q) (rows : list (list Q)) n : length rows = n -> sum (map f rows) = sum (map (fun i => f (nth i rows [])) (seq 0 n)).
Proof. intros <-. rewrite <- (map_nth_seq rows []) at 1. rewrite map_map. reflexivity. Qed.
Lemma q_nq n : q n = nq n.
Proof. reflexivity. Qed.
Lemma q_mult a b : (q (a * b) == q a * q b)%Q.
Proof. unfold q. rewrite Nat2Z.inj_mul, inject_Z_mult. reflexivity. Qed.
Lemma q_plus a b : (q (a + b) == q a + q b)%Q.
Proof. unfold q. rewrite Nat2Z.inj_add, inject_Z_plus. reflexivity. Qed.
Lemma q_minus a b : b <= a -> (q (a - b) == q a - q b)%Q.
Proof. intro H. unfold q. rewrite Nat2Z.inj_sub by exact H. unfold Z.sub. rewrite inject_Z_plus, inject_Z_opp. reflexivity. Qed.
Lemma q_ge a b : a <= b -> (q a <= q b)%Q.
Proof. intro H. unfold q. rewrite <- Zle_Qle. lia. Qed.

Section Table.
Variables (o : order) (rows T : list (list Q)) (n m : nat).
Hypothesis SR : shape n m rows.
Hypothesis ST : shape n m T.
Hypothesis RK : forall i j, i < n -> j < m -> (nth j (nth i T []) 0 == rank_in o (nth i rows []) (nth j (nth i rows []) 0))%Q.
Hypothesis NP : 1 <= n.
Hypothesis MP : 2 <= m.

Lemma cell_read i j : i < n -> j < m -> cell_q T i j = Ok (nth j (nth i T []) 0%Q).
Proof.
  clear NP MP. intros I J. destruct ST as (L & S). unfold cell_q. rewrite (get_ok _ i []) by lia. cbn [rbind].
  rewrite (get_ok _ j 0%Q) by (rewrite S; lia). reflexivity.
Qed.
Lemma sums_ok : exists sums, sum_ranks T n m = Ok sums /\ length sums = m /\ forall j, j < m -> (nth j sums 0 == rank_sum o rows j)%Q.
Proof.
  clear NP MP. unfold sum_ranks. exists (map (fun j => total (map (fun i => nth j (nth i T []) 0%Q) (seq 0 n))) (seq 0 m)). split; [|split].
  - apply mapm_ok. intros j J. apply in_seq in J. rewrite (mapm_ok _ (fun i => nth j (nth i T []) 0%Q)); [reflexivity|].
    intros i I. apply in_seq in I. apply cell_read; lia.
  - rewrite map_length, seq_length. reflexivity.
  - intros j J. rewrite (nth_indep _ 0%Q (total (map (fun i => nth 0 (nth i T []) 0%Q) (seq 0 n)))) by (rewrite map_length, seq_length; exact J).
    rewrite (map_nth (fun j => total (map (fun i => nth j (nth i T []) 0%Q) (seq 0 n)))), seq_nth by exact J. cbn [plus].
    rewrite total_ok. unfold rank_sum. rewrite (sum_rows _ rows n) by apply SR. apply sum_ext. intros i I. apply in_seq in I. apply RK; lia.
Qed.

Lemma row_in i : i < n -> length (nth i rows []) = m.
Proof. intro I. apply SR, I. Qed.
Lemma rank_pos i j : i < n -> j < m -> (1 <= nth j (nth i T []) 0)%Q.
Proof.
  intros I J. rewrite RK by assumption.
  assert (X : In (nth j (nth i rows []) 0%Q) (nth i rows [])) by (apply nth_In; rewrite row_in; assumption).
  apply (C98_rank_order o _ _ _ X X).
Qed.
Lemma rank_eq i j k : i < n -> j < m -> k < m ->
  Qeq_bool (nth j (nth i T []) 0%Q) (nth k (nth i T []) 0%Q) = Qeq_bool (nth j (nth i rows []) 0%Q) (nth k (nth i rows []) 0%Q).
Proof.
  intros I J K. set (v := nth i rows []). assert (X : forall l, l < m -> In (nth l v 0%Q) v) by (intros l L; apply nth_In; unfold v; rewrite row_in; assumption).
  pose proof (RK i j I J) as E1. pose proof (RK i k I K) as E2. fold v in E1, E2.
  destruct (C98_rank_order o v _ _ (X j J) (X k K)) as (_ & EQ & L1). destruct (C98_rank_order o v _ _ (X k K) (X j J)) as (_ & _ & L2).
  destruct (Qeq_bool (nth j v 0%Q) (nth k v 0%Q)) eqn:E.
  - apply qeqb in E. apply qeqb. rewrite E1, E2. apply EQ, E.
  - apply qeqb_false in E. apply qeqb_false. rewrite E1, E2. intro C.
    destruct (better o (nth k v 0%Q) (nth j v 0%Q)) eqn:B1; [specialize (L1 eq_refl); lra|].
    destruct (better o (nth j v 0%Q) (nth k v 0%Q)) eqn:B2; [specialize (L2 eq_refl); lra|].
    apply better_false in B1, B2. apply E. destruct o; lra.
Qed.
Lemma filter_seq {A} (p : A -> bool) (l : list A) d : length (filter p l) = length (filter (fun j => p (nth j l d)) (seq 0 (length l))).
Proof. rewrite <- (map_nth_seq l d) at 1. generalize (seq 0 (length l)). intro s. induction s as [|j s IH]; [reflexivity|]. cbn [map filter]. destruct (p (nth j l d)); cbn [length]; congruence. Qed.
Lemma ties_row i : i < n -> ties (nth i T []) = ties (nth i rows []).
Proof.
  intro I. unfold ties.
  assert (ZR : forall (g : Q -> Z) l, zsum (map g l) = zsum (map (fun j => g (nth j l 0%Q)) (seq 0 (length l)))).
  { intros g l. rewrite <- (map_nth_seq l 0%Q) at 1. rewrite map_map. reflexivity. }
  rewrite !ZR.
  rewrite (row_in i I). destruct ST as (_ & S). rewrite (S i I). apply zsum_ext. intros j J. apply in_seq in J.
  assert (E : eqs (nth i T []) (nth j (nth i T []) 0%Q) = eqs (nth i rows []) (nth j (nth i rows []) 0%Q)).
  { unfold eqs. rewrite (filter_seq _ (nth i T []) 0%Q), (filter_seq _ (nth i rows []) 0%Q), (row_in i I), (S i I). f_equal. apply filter_ext_in.
    intros k K. apply in_seq in K. apply rank_eq; lia. }
  rewrite E. reflexivity.
Qed.

Lemma within_ties : (12 * within o rows m == q n * q m * (q m * q m - 1) - inject_Z (zsum (map ties rows)))%Q.
Proof.
  unfold within. rewrite <- sum_scale.
  transitivity (sum (map (fun row => q m * (q m * q m - 1) + - (1) * inject_Z (ties row))%Q rows)).
  - apply sum_ext. intros row IR. apply (In_nth _ _ []) in IR. destruct IR as (i & I & <-). destruct SR as (LR & _). rewrite LR in I.
    set (v := nth i rows []). assert (LV : length v = m) by (unfold v; apply row_in, I).
    pose proof (sum_dev o v) as D. rewrite LV in D.
    transitivity (inject_Z (3 * zsum (map (fun x => (rk2 o v x - (Z.of_nat m + 1)) * (rk2 o v x - (Z.of_nat m + 1))) v))%Z).
    + rewrite inject_Z_mult, <- sum_inject, map_map. change (inject_Z 3) with 3%Q. rewrite <- !sum_scale. apply sum_ext. intros x _. cbv zeta.
      rewrite rank_in_rk2. rewrite inject_Z_mult. unfold Z.sub. rewrite inject_Z_plus, inject_Z_opp, inject_Z_plus. change (inject_Z 1) with 1%Q. fold (q m). field.
    + rewrite D. unfold Z.sub. rewrite inject_Z_plus, inject_Z_opp, inject_Z_mult, inject_Z_plus, inject_Z_opp, inject_Z_mult. fold (q m). change (inject_Z 1) with 1%Q. ring.
  - rewrite sum_plus, sum_constant, sum_scale. rewrite <- (map_map ties inject_Z), sum_inject. destruct SR as (-> & _). ring.
Qed.
Lemma sum_R : (sum (map (rank_sum o rows) (seq 0 m)) == q n * q m * (q m + 1) / 2)%Q.
Proof.
  unfold rank_sum. rewrite (sum_swap (fun j row => rank_in o row (nth j row 0%Q)) (seq 0 m) rows).
  transitivity (sum (map (fun _ => q m * (q m + 1) / 2)%Q rows)).
  - apply sum_ext. intros row IR. apply (In_nth _ _ []) in IR. destruct IR as (i & I & <-). destruct SR as (LR & _). rewrite LR in I.
    set (v := nth i rows []). assert (LV : length v = m) by (unfold v; apply row_in, I).
    rewrite <- (sum_row (rank_in o v) v m LV). transitivity (sum (map (fun x => (1 # 2) * inject_Z (rk2 o v x))%Q v)).
    + apply sum_ext. intros x _. rewrite rank_in_rk2. field.
    + rewrite sum_scale. rewrite <- (map_map (rk2 o v) inject_Z), sum_inject, sum_rk2, LV, inject_Z_mult, inject_Z_plus. change (inject_Z 1) with 1%Q. fold (q m). field.
  - rewrite sum_constant. destruct SR as (-> & _). field.
Qed.
Lemma between_sqr : (between o rows m == sum (map (fun j => rank_sum o rows j * rank_sum o rows j) (seq 0 m)) - q m * (q n * q n) * ((q m + 1) * (q m + 1)) / 4)%Q.
Proof.
  unfold between. destruct SR as (LR & _). rewrite LR.
  transitivity (sum (map (fun j => rank_sum o rows j * rank_sum o rows j + (- (q n * (q m + 1)) * rank_sum o rows j + (q n * q n) * ((q m + 1) * (q m + 1)) / 4))%Q (seq 0 m))).
  - apply sum_ext. intros j _. cbv zeta. field.
  - rewrite sum_plus, sum_plus, sum_scale, sum_R, sum_constant, seq_length. field.
Qed.
Lemma dsum_ok sums : length sums = m -> (forall j, j < m -> (nth j sums 0 == rank_sum o rows j)%Q) ->
  (dsum_sqr sums == sum (map (fun j => rank_sum o rows j * rank_sum o rows j) (seq 0 m)))%Q.
Proof.
  intros L S. unfold dsum_sqr. rewrite total_ok. change (sum (map (fun x => x * x)%Q sums) == sum (map (fun j => rank_sum o rows j * rank_sum o rows j) (seq 0 m)))%Q. rewrite (sum_row (fun x => x * x)%Q sums m L).
  apply sum_ext. intros j J. apply in_seq in J. rewrite S by lia. reflexivity.
Qed.

Lemma dem_pos : 1 <= n * m * (m * m - 1).
Proof. assert (4 <= m * m) by nia. assert (1 <= n * m) by nia. nia. Qed.
Lemma adjust_ok lim : lim <= m -> (forall i, i < n -> few_values lim (nth i rows []) \/ all_different (nth i rows [])) ->
  exists a, calc_adjust T n m lim = Ok (Some a) /\ (a * (q n * q m * (q m * q m - 1)) == 12 * within o rows m)%Q.
Proof.
  intros LI FV. unfold calc_adjust.
  destruct (mapm_ex (fun i => rbind (mapm (fun j => cell_q T i j) (seq 0 m)) (fun xs => row_ties xs m lim))
    (fun i t => Z.of_nat t = ties (nth i rows [])) (seq 0 n)) as (ts & E & F).
  { intros i I. apply in_seq in I. rewrite (mapm_ok _ (fun j => nth j (nth i T []) 0%Q)) by (intros j J; apply in_seq in J; apply cell_read; lia).
    cbn [rbind]. destruct ST as (_ & S). assert (LT : length (nth i T []) = m) by (apply S; lia).
    replace (map (fun j => nth j (nth i T []) 0%Q) (seq 0 m)) with (nth i T []) by (rewrite <- LT; symmetry; apply map_nth_seq).
    rewrite <- (ties_row i) by lia. apply row_ties_ok; [exact LT|exact LI| |].
    - apply Forall_forall. intros x X. apply (In_nth _ _ 0%Q) in X. destruct X as (j & J & <-). rewrite LT in J. pose proof (rank_pos i j). intro C. rewrite C in H.
      assert (1 <= 0)%Q by (apply H; lia). lra.
    - destruct (FV i) as [(vals & LV & C)|D]; [lia| |].
      + left. exists (map (rank_in o (nth i rows [])) vals). split; [rewrite map_length; exact LV|]. intros x X. apply (In_nth _ _ 0%Q) in X. destruct X as (j & J & <-).
        rewrite LT in J. assert (IX : In (nth j (nth i rows []) 0%Q) (nth i rows [])) by (apply nth_In; rewrite row_in; lia).
        specialize (C _ IX). apply Exists_exists in C. destruct C as (w & IW & W). apply Exists_exists. exists (rank_in o (nth i rows []) w).
        split; [apply in_map, IW|]. rewrite RK by lia. rewrite !rank_in_rk2. unfold rk2. rewrite (eqs_ext _ _ _ W).
        assert (B : bef o (nth i rows []) (nth j (nth i rows []) 0%Q) = bef o (nth i rows []) w); [|rewrite B; reflexivity].
        unfold bef. f_equal. apply filter_ext. intro y. destruct (better o w y) eqn:Y.
        * apply better_spec in Y. apply better_spec. destruct o; lra.
        * apply better_false in Y. apply better_false. destruct o; lra.
      + right. assert (G : forall l k, (forall a b, a < length l -> b < length l -> (nth a l 0 == nth b l 0)%Q -> a = b) -> k = 0 -> distinct l).
        { clear. induction l as [|x l IH]; intros k H K; [constructor|]. constructor.
          - apply Forall_forall. intros y Y C. apply (In_nth _ _ 0%Q) in Y. destruct Y as (b & B & <-). specialize (H 0 (S b)).
            cbn [length nth] in H. assert (0 = S b) by (apply H; [lia|lia|exact C]). lia.
          - apply (IH k); [|exact K]. intros a b A B C. specialize (H (S a) (S b)). cbn [length nth] in H. assert (S a = S b) by (apply H; [lia|lia|exact C]). lia. }
        apply (G _ 0); [|reflexivity]. rewrite LT. intros a b A B C. apply qeqb in C. rewrite rank_eq in C by lia. apply qeqb in C.
        apply D; rewrite ?row_in by lia; [lia|lia|exact C]. }
  rewrite E. cbn [rbind]. pose proof dem_pos as DP. destruct (Nat.eqb_spec (n * m * (m * m - 1)) 0) as [C|_]; [lia|].
  eexists. split; [reflexivity|]. rewrite within_ties.
  assert (TS : Z.of_nat (list_sum ts) = zsum (map ties rows)).
  { destruct SR as (LR & _). rewrite <- (map_nth_seq rows []), LR, map_map. revert F. clear. generalize (seq 0 n). intros l F.
    induction F as [|i t l ts H _ IH]; [reflexivity|]. cbn [map]. rewrite zsum_cons. cbn [list_sum fold_right]. rewrite Nat2Z.inj_add. unfold list_sum in IH. rewrite IH, H. reflexivity. }
  rewrite <- TS. fold (nq (list_sum ts)).
  assert (QD : (nq (n * m * (m * m - 1)) == q n * q m * (q m * q m - 1))%Q).
  { rewrite <- q_nq, q_mult, q_mult, q_minus, q_mult by nia. reflexivity. }
  assert (NZ : ~ (nq (n * m * (m * m - 1)) == 0)%Q) by (apply nq_pos; lia). rewrite <- QD. field. exact NZ.
Qed.

Lemma stat_ok sums a : length sums = m -> (forall j, j < m -> (nth j sums 0 == rank_sum o rows j)%Q) ->
  (a * (q n * q m * (q m * q m - 1)) == 12 * within o rows m)%Q ->
  exists v x, analyze m n sums (Some a) = Ok v /\ v_stat v = Some x /\ friedman o rows m x /\
    (m <= 31 -> rejects m x (v_differ v)) /\ v_df v = Nat.min (m - 2) 29.
Proof.
  intros L S A. unfold analyze. assert (N1 : (1 <= q n)%Q) by (change 1%Q with (q 1); apply q_ge, NP). assert (M2 : (2 <= q m)%Q) by (change 2%Q with (q 2); apply q_ge, MP).
  assert (DZ : n * m * (m + 1) <> 0) by nia. destruct (Nat.eqb_spec (n * m * (m + 1)) 0) as [C|_]; [contradiction|].
  set (df := if max_df <? m - 2 then max_df else m - 2).
  assert (DF : df = Nat.min (m - 2) 29) by (unfold df, max_df; destruct (Nat.ltb_spec 29 (m - 2)); lia).
  assert (LV : exists lv, x2_score df gen_per = Ok lv /\ (lv == nth df chi5 0)%Q).
  { assert (D30 : df < 30) by lia. clearbody df. clear - D30.
    do 30 (destruct df as [|df]; [eexists; split; [reflexivity|vm_compute; reflexivity]|]). lia. }
  destruct LV as (lv & -> & ELV).
  assert (GT : m <= 31 -> forall y, rejects m y (gt (Some y) lv)).
  { intros M31 y. unfold rejects, gt. rewrite negb_true_iff. rewrite DF, Nat.min_l in ELV by lia. split; intro C.
    - apply Qnot_le_lt. intro LE. rewrite <- ELV in LE. apply Qle_bool_iff in LE. congruence.
    - destruct (Qle_bool y lv) eqn:LE; [|reflexivity]. apply Qle_bool_iff in LE. rewrite ELV in LE. exfalso. apply (Qlt_not_le _ _ C LE). }
  set (x0 := (12 / nq (n * m * (m + 1)) * dsum_sqr sums - 3 * nq n * nq (m + 1))%Q).
  assert (QD : (nq (n * m * (m + 1)) == q n * q m * (q m + 1))%Q) by (rewrite <- q_nq, q_mult, q_mult, q_plus; reflexivity).
  assert (EX : (x0 * (q n * q m * (q m + 1)) == 12 * between o rows m)%Q).
  { unfold x0. rewrite (dsum_ok sums L S), between_sqr, QD. change (nq n) with (q n). change (nq (m + 1)) with (q (m + 1)). rewrite q_plus. change (q 1) with 1%Q. field. split; [lra|]. split; lra. }
  cbn [rbind option_map]. destruct (Qeq_bool a 0) eqn:EA.
  - apply qeqb in EA. eexists. exists 0%Q. split; [reflexivity|]. cbn [v_stat v_differ v_df]. split; [reflexivity|].
    assert (W0 : (within o rows m == 0)%Q) by (rewrite EA in A; lra). split; [|split; [|exact DF]].
    + (* all ranks are the mean rank, so between is 0 *)
      split; [|reflexivity]. assert (B0 : (between o rows m == 0)%Q).
      { assert (ZW : forall i j, i < n -> j < m -> (rank_in o (nth i rows []) (nth j (nth i rows []) 0) == (q m + 1) / 2)%Q).
        { assert (SQ : forall d : Q, (0 <= d * d)%Q) by (intro d; destruct (Qlt_le_dec d 0); nra).
          assert (PZ : forall A (f : A -> Q) l, (forall x, In x l -> (0 <= f x)%Q) -> (0 <= sum (map f l))%Q /\ ((sum (map f l) == 0)%Q -> forall x, In x l -> (f x == 0)%Q)).
          { intros B f l. induction l as [|y l IH]; intro P; [split; [cbn; lra|intros _ ? []]|]. destruct IH as (I1 & I2); [intros z Z; apply P; right; exact Z|].
            pose proof (P y (or_introl eq_refl)) as PY. cbn [map]. assert (E : (sum (f y :: map f l) == f y + sum (map f l))%Q) by apply sum_cons. split; [lra|].
            intros Z z [<-|IZ]; [lra|apply I2; [lra|exact IZ]]. }
          intros i j I J. unfold within in W0. destruct SR as (LR & SR').
          assert (IR : In (nth i rows []) rows) by (apply nth_In; lia).
          destruct (PZ _ (fun row => sum (map (fun x => let d := (rank_in o row x - (q m + 1) / 2)%Q in (d * d)%Q) row)) rows) as (_ & P1).
          { intros row _. apply PZ. intros x _. apply SQ. }
          specialize (P1 W0 _ IR). cbv beta in P1.
          destruct (PZ _ (fun x => let d := (rank_in o (nth i rows []) x - (q m + 1) / 2)%Q in (d * d)%Q) (nth i rows [])) as (_ & P2); [intros x _; apply SQ|].
          specialize (P2 P1 (nth j (nth i rows []) 0%Q)). cbv beta zeta in P2.
          assert (P3 := P2 ltac:(apply nth_In; rewrite SR'; lia)). apply Qmult_integral in P3. lra. }
        unfold between. transitivity (sum (map (fun _ => 0%Q) (seq 0 m))); [|rewrite sum_constant; ring]. apply sum_ext. intros j J. apply in_seq in J. cbv zeta.
        assert (RJ : (rank_sum o rows j == q n * (q m + 1) / 2)%Q).
        { unfold rank_sum. rewrite (sum_rows _ rows n) by apply SR. transitivity (sum (map (fun _ => (q m + 1) / 2)%Q (seq 0 n))).
          - apply sum_ext. intros i I. apply in_seq in I. apply ZW; lia.
          - rewrite sum_constant, seq_length. field. }
        destruct SR as (-> & _). rewrite RJ. ring. }
      rewrite B0. ring.
    + intro M31. apply GT, M31.
  - apply qeqb_false in EA. eexists. exists (x0 / a)%Q. split; [reflexivity|]. cbn [v_stat v_differ v_df]. split; [reflexivity|]. split; [|split; [|exact DF]].
    + split.
      * assert (WA : (within o rows m == a * (q n * q m * (q m * q m - 1)) / 12)%Q) by (rewrite A; field). rewrite WA.
        assert (BX : (between o rows m == x0 * (q n * q m * (q m + 1)) / 12)%Q) by (rewrite EX; field). rewrite BX. field. exact EA.
      * intro W0. rewrite W0 in A. exfalso. apply EA. assert (P1 : (0 < q n * q m)%Q) by nra. assert (P2 : (0 < q m * q m - 1)%Q) by nra.
        pose proof (Qmult_lt_0_compat _ _ P1 P2) as P. assert (A0 : (a * (q n * q m * (q m * q m - 1)) == 0)%Q) by (rewrite A; ring).
        apply Qmult_integral in A0. destruct A0 as [A0|A0]; [exact A0|]. rewrite A0 in P. discriminate P.
    + intro M31. apply GT, M31.
Qed.
End Table.
