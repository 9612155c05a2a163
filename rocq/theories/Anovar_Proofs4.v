(** The comparisons and the report. *)
From Coq Require Import List ZArith QArith NArith Lia Lqa Arith Bool Permutation Sorted.
From Verif Require Import Base Order_Model Order_Proofs1 Summ_Model Summ_Proofs1 Rank_Model Rank_Spec Rank_Proofs1 Rank_Proofs2
  Anovar_Model Anovar_Spec Anovar_Proofs1 Anovar_Proofs2 Anovar_Proofs3.
Import ListNotations.
Local Open Scope nat_scope.

(** ** tables *)
Lemma table_rows : length x2_table = 30 /\ Forall (fun row => length row = 14) x2_table.
Proof. split; [reflexivity|]. repeat constructor. Qed.
Lemma score_ok df per : df < 30 -> per < 14 -> x2_score df per = Ok (level df per).
Proof.
  intros D P. destruct table_rows as (L & F). unfold x2_score. rewrite (get_ok _ df []) by lia. cbn [rbind].
  rewrite (get_ok _ per 0%Q); [reflexivity|]. rewrite Forall_forall in F. rewrite F; [exact P|]. apply nth_In. lia.
Qed.
Lemma z_ok m : 2 <= m -> exists z, calc_comp_value m = Ok z /\ (z == z_value m)%Q.
Proof.
  intro M. destruct (Nat.eq_dec m 2) as [->|N]; [exists (1881 # 1000)%Q; split; [vm_compute; reflexivity|reflexivity]|].
  unfold calc_comp_value. cbn [get nth_error z1_tail max_z min_z rbind]. destruct (m * (m - 1)) as [|d] eqn:E; [nia|].
  assert (D : 6 <= S d) by nia.
  assert (B : Qle_bool (exter (233 # 100, 99 # 100)%Q) ((5 # 100) / nq (S d))%Q = false).
  { destruct (Qle_bool _ _) eqn:C; [|reflexivity]. apply Qle_bool_iff in C. exfalso. unfold exter in C. cbn [snd] in C.
    assert (G : (6 <= nq (S d))%Q) by (change 6%Q with (q 6); apply q_ge, D).
    assert (H : ((5 # 100) / nq (S d) <= 1 # 120)%Q) by (apply Qle_shift_div_r; lra). lra. }
  change (5 # 100)%Q with (5 # 100)%Q in B. rewrite B. cbn [negb]. exists (233 # 100)%Q. split; [reflexivity|].
  unfold z_value. destruct (Nat.eqb_spec m 2); [contradiction|reflexivity].
Qed.

(** ** the loops *)
Definition zmat (n : nat) (c : nat -> nat -> Z) : list (list Z) := map (fun i => map (c i) (seq 0 n)) (seq 0 n).
Lemma zmat_ext n c c' : (forall i j, i < n -> j < n -> c i j = c' i j) -> zmat n c = zmat n c'.
Proof. intro H. apply map_ext_in. intros i I. apply map_ext_in. intros j J. apply in_seq in I, J. apply H; lia. Qed.
Lemma add_ok n c i j r : i < n -> j < n ->
  add_cell (zmat n c) i j r = Ok (zmat n (fun a b => (c a b + if ((a =? i) && (b =? j))%nat then r else 0)%Z)).
Proof.
  intros I J. unfold add_cell, zmat. rewrite (get_map_seq (fun i => map (c i) (seq 0 n))) by exact I. cbn [rbind].
  rewrite get_map_seq by exact J. cbn [rbind]. rewrite set_map_seq by exact J. cbn [rbind plus]. rewrite set_map_seq by exact I. cbn [plus]. f_equal.
  apply map_ext_in. intros a A. destruct (Nat.eqb_spec a i) as [->|].
  - apply map_ext_in. intros b B. destruct (Nat.eqb_spec b j) as [->|]; cbn [andb]; lia.
  - apply map_ext_in. intros b B. cbn [andb]. lia.
Qed.
Definition inr (s k x : nat) : bool := (s <=? x) && (x <? s + k).
Section Loops.
Variables (z x : Q) (sums : list Q) (n : nat).
Hypothesis LS : length sums = n.
Definition v (a b : nat) : Z := compare_pair z x (nth a sums 0%Q) (nth b sums 0%Q).
Lemma inner_ok c1 : c1 < n -> forall k s c, c1 < s -> s + k <= n ->
  inner z x sums c1 (seq s k) (zmat n c) = Ok (zmat n (fun a b => (c a b + (if ((a =? c1) && inr s k b)%nat then v a b else 0) - (if ((b =? c1) && inr s k a)%nat then v b a else 0))%Z)).
Proof.
  intro C1. induction k as [|k IH]; intros s c CS L; cbn [seq inner].
  - f_equal. apply zmat_ext. intros i j _ _. unfold inr. destruct (Nat.leb_spec s j), (Nat.ltb_spec j (s + 0)), (Nat.leb_spec s i), (Nat.ltb_spec i (s + 0)); try lia; cbn [andb]; rewrite ?andb_false_r; lia.
  - rewrite (get_ok _ c1 0%Q) by lia. cbn [rbind]. rewrite (get_ok _ s 0%Q) by lia. cbn [rbind]. fold (v c1 s).
    rewrite add_ok by lia. cbn [rbind]. rewrite add_ok by lia. cbn [rbind]. rewrite IH by lia. f_equal. apply zmat_ext. intros a b A B. cbv beta.
    unfold inr. replace (S s + k) with (s + S k) by lia.
    destruct (Nat.eqb_spec a c1) as [->|]; destruct (Nat.eqb_spec b c1) as [->|]; cbn [andb];
    repeat match goal with |- context [?u =? ?w] => destruct (Nat.eqb_spec u w); [subst|] | |- context [?u <=? ?w] => destruct (Nat.leb_spec u w) | |- context [?u <? ?w] => destruct (Nat.ltb_spec u w) end;
    cbn [andb]; lia.
Qed.
Lemma outer_ok : forall k s c, s + k <= n ->
  outer z x sums n (seq s k) (zmat n c) =
  Ok (zmat n (fun a b => (c a b + (if (inr s k a && (a <? b))%nat then v a b else 0) - (if (inr s k b && (b <? a))%nat then v b a else 0))%Z)).
Proof.
  induction k as [|k IH]; intros s c L; cbn [seq outer].
  - f_equal. apply zmat_ext. intros i j _ _. unfold inr. destruct (Nat.leb_spec s j), (Nat.ltb_spec j (s + 0)), (Nat.leb_spec s i), (Nat.ltb_spec i (s + 0)); try lia; cbn [andb]; rewrite ?andb_false_r; lia.
  - rewrite inner_ok by lia. cbn [rbind]. rewrite IH by lia. f_equal. apply zmat_ext. intros a b A B. cbv beta. unfold inr.
    replace (s + 1 + (n - (s + 1))) with n by lia. replace (S s + k) with (s + S k) by lia.
    destruct (Nat.eqb_spec a s) as [->|]; destruct (Nat.eqb_spec b s) as [->|]; cbn [andb];
    repeat match goal with |- context [?u <=? ?w] => destruct (Nat.leb_spec u w) | |- context [?u <? ?w] => destruct (Nat.ltb_spec u w) end;
    cbn [andb]; lia.
Qed.
End Loops.
Lemma zeros_zmat n : repeat (repeat 0%Z n) n = zmat n (fun _ _ => 0%Z).
Proof. unfold zmat. rewrite (repeat_map_seq _ n 0). apply map_ext. intro i. apply repeat_map_seq. Qed.
Lemma win_zmat n c i j : i < n -> j < n -> win (zmat n c) i j = c i j.
Proof.
  intros I J. unfold win, zmat. rewrite (nth_indep _ [] (map (c 0) (seq 0 n))) by (rewrite map_length, seq_length; exact I).
  rewrite (map_nth (fun i => map (c i) (seq 0 n))), seq_nth by exact I. cbn [plus].
  rewrite (nth_indep _ 0%Z (c i 0)) by (rewrite map_length, seq_length; exact J). rewrite map_nth, seq_nth by exact J. reflexivity.
Qed.
Lemma qle_false a b : Qle_bool a b = false <-> (b < a)%Q.
Proof.
  split; intro H.
  - apply Qnot_le_lt. intro L. apply Qle_bool_iff in L. congruence.
  - destruct (Qle_bool a b) eqn:E; [|reflexivity]. apply Qle_bool_iff in E. exfalso. apply (Qlt_not_le _ _ H E).
Qed.
Lemma compare_ok z x s1 s2 : (0 < z * z * x)%Q ->
  let c := compare_pair z x s1 s2 in
  (c = 1%Z /\ apart z x s1 s2 /\ (s2 < s1)%Q) \/ (c = (-1)%Z /\ apart z x s1 s2 /\ (s1 < s2)%Q) \/ (c = 0%Z /\ ~ apart z x s1 s2).
Proof.
  intro P. unfold compare_pair, apart. cbv zeta. destruct (Qle_bool (z * z * x)%Q _) eqn:E.
  - apply Qle_bool_iff in E. destruct (Qle_bool s1 s2) eqn:F; cbn [negb].
    + apply Qle_bool_iff in F. right. left. split; [reflexivity|]. split; [exact E|].
      destruct (Qlt_le_dec s1 s2) as [|G]; [assumption|]. exfalso. assert (D : (s1 - s2 == 0)%Q) by lra. rewrite D in E. lra.
    + apply qle_false in F. left. auto.
  - apply qle_false in E. right. right. split; [reflexivity|]. apply Qlt_not_le, E.
Qed.
Lemma apart_ext z z' x x' a a' b b' : (z == z')%Q -> (x == x')%Q -> (a == a')%Q -> (b == b')%Q -> apart z x a b <-> apart z' x' a' b'.
Proof. intros E1 E2 E3 E4. unfold apart. rewrite E1, E2, E3, E4. reflexivity. Qed.
Lemma apart_sym z x a b : apart z x a b <-> apart z x b a.
Proof. unfold apart. assert (E : ((a - b) * (a - b) == (b - a) * (b - a))%Q) by ring. rewrite E. reflexivity. Qed.

Lemma limit_pos n m : 1 <= n -> 2 <= m -> (0 < z_value m)%Q /\ (0 < variance_used n m)%Q.
Proof.
  intros N M. assert (N1 : (1 <= q n)%Q) by (change 1%Q with (q 1); apply q_ge, N). assert (M2 : (2 <= q m)%Q) by (change 2%Q with (q 2); apply q_ge, M).
  split; [unfold z_value; destruct (m =? 2); reflexivity|]. unfold variance_used. assert (P1 : (0 < q n * q m)%Q) by nra. assert (P2 : (0 < q m - 1)%Q) by lra.
  pose proof (Qmult_lt_0_compat _ _ P1 P2) as P. apply Qlt_shift_div_l; lra.
Qed.
Lemma wins_ok o rows n m sums : length rows = n -> 1 <= n -> 2 <= m -> length sums = m ->
  (forall j, j < m -> (nth j sums 0 == rank_sum o rows j)%Q) ->
  exists W, calc_stat_ranks m n sums = Ok W /\ compared o rows m W.
Proof.
  intros LR N M LS S. unfold calc_stat_ranks. destruct (z_ok m M) as (z & -> & EZ). cbn [rbind]. rewrite zeros_zmat.
  set (x := (nq (n * m * (m - 1)) / 6)%Q). rewrite (outer_ok z x sums m LS (m - 1) 0) by lia. eexists. split; [reflexivity|].
  assert (EX : (x == variance_used n m)%Q).
  { unfold x, variance_used. change (nq (n * m * (m - 1))) with (q (n * m * (m - 1))). rewrite q_mult, q_mult, q_minus by lia. reflexivity. }
  destruct (limit_pos n m N M) as (ZP & XP). rewrite <- EZ in ZP. rewrite <- EX in XP.
  assert (P : (0 < z * z * x)%Q) by (apply Qmult_lt_0_compat; [apply Qmult_lt_0_compat; exact ZP|exact XP]).
  split; [unfold zmat; rewrite map_length, seq_length; reflexivity|].
  split. { apply Forall_forall. intros row R. apply in_map_iff in R. destruct R as (i & <- & _). rewrite map_length, seq_length. reflexivity. }
  intros i j I J. cbv zeta. rewrite LR. rewrite win_zmat by assumption.
  rewrite <- (apart_ext _ _ _ _ _ _ _ _ EZ EX (S i I) (S j J)).
  assert (LT : forall a b, a < m -> b < m -> ((nth a sums 0 < nth b sums 0)%Q <-> (rank_sum o rows a < rank_sum o rows b)%Q)) by (intros a b A B; rewrite (S a A), (S b B); reflexivity).
  rewrite <- !LT by assumption. unfold inr.
  destruct (Nat.lt_total i j) as [L|[->|L]].
  - destruct (Nat.leb_spec 0 i); [|lia]. destruct (Nat.ltb_spec i (0 + (m - 1))); [|lia]. destruct (Nat.ltb_spec i j); [|lia]. destruct (Nat.ltb_spec j i); [lia|].
    cbn [andb]. rewrite andb_false_r. pose proof (compare_ok z x (nth i sums 0%Q) (nth j sums 0%Q) P) as C. cbv zeta in C. fold (v z x sums i j) in C.
    destruct C as [(-> & A & B)|[(-> & A & B)|(-> & A)]]; (split; [|split]); split; intro G; try lia; try tauto; destruct G as (_ & G); exfalso; apply (Qlt_not_le _ _ G), Qlt_le_weak, B.
  - rewrite Nat.ltb_irrefl, andb_false_r.
    assert (NA : ~ apart z x (nth j sums 0%Q) (nth j sums 0%Q)). { unfold apart. assert (E : ((nth j sums 0 - nth j sums 0) * (nth j sums 0 - nth j sums 0) == 0)%Q) by ring. rewrite E. apply Qlt_not_le, P. }
    split; [|split]; split; intro G; try lia; tauto.
  - destruct (Nat.leb_spec 0 j); [|lia]. destruct (Nat.ltb_spec j (0 + (m - 1))); [|lia]. destruct (Nat.ltb_spec i j); [lia|]. destruct (Nat.ltb_spec j i); [|lia].
    cbn [andb]. rewrite andb_false_r. pose proof (compare_ok z x (nth j sums 0%Q) (nth i sums 0%Q) P) as C. cbv zeta in C. fold (v z x sums j i) in C.
    rewrite (apart_sym z x (nth j sums 0%Q)) in C.
    destruct C as [(-> & A & B)|[(-> & A & B)|(-> & A)]]; (split; [|split]); split; intro G; try lia; try tauto; destruct G as (_ & G); exfalso; apply (Qlt_not_le _ _ G), Qlt_le_weak, B.
Qed.

(** ** the printed matrix *)
Lemma max_len_ok names k : fold_left (fun m s => if m <? length s then length s else m) names k <= 17 <-> k <= 17 /\ Forall (fun s : list N => length s <= 17) names.
Proof.
  revert k. induction names as [|s names IH]; intro k; cbn [fold_left]; [split; [auto|tauto]|].
  rewrite IH. split.
  - intros (A & B). destruct (Nat.ltb_spec k (length s)); split; try lia; constructor; auto; lia.
  - intros (A & B). inversion B; subst. split; [destruct (Nat.ltb_spec k (length s)); lia|assumption].
Qed.
Lemma matrix_ok o rows m names W srt : compared o rows m W -> 1 <= length rows -> 2 <= m -> length names = m -> Permutation srt (seq 0 m) -> Forall (fun s => length s <= 17) names ->
  exists M, print_matrix names W srt = Ok M /\ matrix_of o rows m names srt M.
Proof.
  intros (LW & FW & C) NP MP LN PS F. unfold print_matrix. destruct (limit_pos _ m NP MP) as (ZP & XP).
  assert (ML : max_len names <= 17) by (apply max_len_ok; split; [lia|exact F]). destruct (Nat.ltb_spec 20 (max_len names + 3)); [lia|]. rewrite LN.
  assert (LP : length srt = m) by (rewrite (Permutation_length PS), seq_length; reflexivity).
  assert (SP : forall t, t < m -> nth t srt 0 < m).
  { intros t T. assert (I : In (nth t srt 0) (seq 0 m)) by (apply (Permutation_in _ PS), nth_In; lia). apply in_seq in I. lia. }
  destruct (mapm_ex (fun t => rbind (get srt t) (fun p => rbind (get names p) (fun s => rbind (mapm (fun t2 => matrix_cell W names srt t t2) (seq 0 m)) (fun cs => Ok (s, cs)))))
    (fun t e => fst e = nth (nth t srt 0) names [] /\ length (snd e) = m /\ forall t2, t2 < m -> exists c, nth_error (snd e) t2 = Some c /\
      if t <? t2 then better_named o rows m names (nth t srt 0) (nth t2 srt 0) c else c = Nothing) (seq 0 m)) as (M & E & FM).
  { intros t T. apply in_seq in T. rewrite (get_ok _ t 0) by lia. cbn [rbind]. pose proof (SP t ltac:(lia)) as ST. rewrite (get_ok _ (nth t srt 0) []) by lia. cbn [rbind].
    destruct (mapm_ex (fun t2 => matrix_cell W names srt t t2) (fun t2 c => if t <? t2 then better_named o rows m names (nth t srt 0) (nth t2 srt 0) c else c = Nothing) (seq 0 m)) as (cs & -> & FC).
    { intros t2 T2. apply in_seq in T2. unfold matrix_cell. destruct (t <? t2); [|eexists; split; reflexivity].
      rewrite (get_ok _ t 0) by lia. cbn [rbind]. rewrite (get_ok _ t2 0) by lia. cbn [rbind]. pose proof (SP t2 ltac:(lia)) as ST2.
      rewrite (get_ok _ (nth t srt 0) []) by lia. cbn [rbind]. rewrite (get_ok _ (nth t2 srt 0) 0%Z).
      2:{ rewrite Forall_forall in FW. rewrite FW; [exact ST2|]. apply nth_In. lia. }
      cbn [rbind]. fold (win W (nth t srt 0) (nth t2 srt 0)). destruct (C _ _ ST ST2) as (C1 & C2 & C3).
      destruct (Z.eqb_spec (win W (nth t srt 0) (nth t2 srt 0)) (-1)) as [E1|E1].
      { rewrite (get_ok _ (nth t srt 0) []) by lia. cbn [rbind]. eexists. split; [reflexivity|]. apply C2 in E1. left. tauto. }
      destruct (Z.eqb_spec (win W (nth t srt 0) (nth t2 srt 0)) 1) as [E2|E2].
      { rewrite (get_ok _ (nth t2 srt 0) []) by lia. cbn [rbind]. eexists. split; [reflexivity|]. apply C1 in E2. right. left. tauto. }
      eexists. split; [reflexivity|]. right. right. split; [|reflexivity]. intro A.
      destruct (Qlt_le_dec (rank_sum o rows (nth t srt 0)) (rank_sum o rows (nth t2 srt 0))) as [L|L]; [apply E1, C2; auto|].
      destruct (Qlt_le_dec (rank_sum o rows (nth t2 srt 0)) (rank_sum o rows (nth t srt 0))) as [L'|L']; [apply E2, C1; auto|].
      exfalso. unfold apart in A. assert (EQ : (rank_sum o rows (nth t srt 0%nat) - rank_sum o rows (nth t2 srt 0%nat) == 0)%Q) by lra. rewrite EQ in A.
      pose proof (Qmult_lt_0_compat _ _ (Qmult_lt_0_compat _ _ ZP ZP) XP). lra. }
    cbn [rbind]. eexists. split; [reflexivity|]. cbn [fst snd]. split; [reflexivity|]. destruct (Forall2_nth_seq _ m cs Nothing 0 FC) as (LC & GC). split; [exact LC|].
    intros t2 T2. exists (nth t2 cs Nothing). split; [apply nth_error_nth'; lia|]. apply (GC t2 T2). }
  exists M. split; [exact E|]. destruct (Forall2_nth_seq _ m M ([], []) 0 FM) as (LM & GM). split; [exact LM|].
  intros t T. destruct (GM t T) as (G1 & G2 & G3). exists (snd (nth t M ([], []))). split; [|auto].
  rewrite (nth_error_nth' M ([], [])) by lia. f_equal. rewrite (surjective_pairing (nth t M ([], []))) at 1. f_equal. exact G1.
Qed.

(** ** the probability *)
Lemma gt_iff x y : gt (Some x) y = true <-> (y < x)%Q.
Proof. unfold gt. rewrite negb_true_iff. apply qle_false. Qed.
Lemma gt_false x y : gt (Some x) y = false <-> (x <= y)%Q.
Proof. unfold gt. rewrite negb_false_iff. apply Qle_bool_iff. Qed.
Lemma up_ok x df : df < 30 -> forall k fuel i, i + k = 13 -> k < fuel -> (level df i <= x)%Q ->
  exists r, search_up fuel (Some x) df i = Ok r /\ r <= 13 /\ (level df r <= x)%Q /\ (r < 13 -> (x <= level df (r + 1))%Q).
Proof.
  intro D. induction k as [|k IH]; intros fuel i K F L; (destruct fuel as [|fuel]; [lia|]); cbn [search_up]; unfold max_per.
  - destruct (Nat.ltb_spec i 13); [lia|]. exists i. repeat split; auto; lia.
  - destruct (Nat.ltb_spec i 13); [|lia]. rewrite score_ok by lia. cbn [rbind]. destruct (lt (Some x) (level df (i + 1))) eqn:E.
    + exists i. repeat split; auto; try lia. intros _. apply Qlt_le_weak. unfold lt in E. rewrite negb_true_iff in E. apply qle_false, E.
    + apply IH; try lia. unfold lt in E. rewrite negb_false_iff in E. apply Qle_bool_iff, E.
Qed.
Lemma down_ok x df : df < 30 -> forall i fuel, i < 14 -> i < fuel -> (x <= level df i)%Q ->
  exists r, search_down fuel (Some x) df i = Ok r /\ r <= i /\ (x <= level df r)%Q /\ (0 < r -> (level df (r - 1) <= x)%Q).
Proof.
  intro D. induction i as [|i IH]; intros fuel I F L; (destruct fuel as [|fuel]; [lia|]); cbn [search_down]; unfold min_per.
  - destruct (Nat.ltb_spec 0 0); [lia|]. exists 0. repeat split; auto; lia.
  - destruct (Nat.ltb_spec 0 (S i)); [|lia]. replace (S i - 1) with i by lia. rewrite score_ok by lia. cbn [rbind]. destruct (gt (Some x) (level df i)) eqn:E.
    + exists (S i). repeat split; auto. intros _. replace (S i - 1) with i by lia. apply Qlt_le_weak, gt_iff, E.
    + destruct (IH fuel ltac:(lia) ltac:(lia)) as (r & E1 & E2 & E3 & E4); [apply gt_false, E|]. exists r. repeat split; auto.
Qed.
Lemma probability_ok a x : v_stat a = Some x -> v_df a < 30 -> exists s, probability a = Ok s /\ true_of (v_df a) x s.
Proof.
  intros X D. unfold probability. rewrite X. unfold gen_per. rewrite score_ok by lia. cbn [rbind]. destruct (gt (Some x) (level (v_df a) 10)) eqn:E.
  - destruct (up_ok x _ D 3 (max_per + 1) 10) as (r & -> & R1 & R2 & R3); try (unfold max_per; lia); [apply Qlt_le_weak, gt_iff, E|]. cbn [rbind].
    eexists. split; [reflexivity|]. unfold max_per. destruct (Nat.eqb_spec r 13); [split; auto|]. split; [reflexivity|]. split; [lia|]. split; [exact R2|apply R3; lia].
  - destruct (down_ok x _ D 10 (max_per + 1)) as (r & -> & R1 & R2 & R3); try (unfold max_per; lia); [apply gt_false, E|]. cbn [rbind].
    eexists. split; [reflexivity|]. unfold min_per. destruct (Nat.eqb_spec r 0); [subst; split; auto|]. split; [lia|]. split; [lia|]. split; [apply R3; lia|exact R2].
Qed.

(** ** one half *)
Lemma half_ok verbose o rows T n m lim names srt : shape n m rows -> shape n m T ->
  (forall i j, i < n -> j < m -> (nth j (nth i T []) 0 == rank_in o (nth i rows []) (nth j (nth i rows []) 0))%Q) ->
  1 <= n -> 2 <= m -> lim <= m -> (forall i, i < n -> few_values lim (nth i rows []) \/ all_different (nth i rows [])) ->
  length names = m -> Permutation srt (seq 0 m) -> (verbose = true -> Forall (fun s => length s <= 17) names) ->
  exists sums adjust h, sum_ranks T n m = Ok sums /\ calc_adjust T n m lim = Ok adjust /\
    half_of verbose m n sums adjust names srt = Ok h /\ analysed verbose o rows m names srt h.
Proof.
  intros SR ST RK NP MP LI FV LN PS FN.
  destruct (sums_ok o rows T n m SR ST RK) as (sums & ES & LS & S).
  destruct (adjust_ok o rows T n m SR ST RK NP MP lim LI FV) as (a & EA & A).
  destruct (stat_ok o rows n m SR NP MP sums a LS S A) as (v & x & EV & X & FR & RJ & DF).
  destruct SR as (LR & SR). destruct (wins_ok o rows n m sums LR NP MP LS S) as (W & EW & C).
  exists sums, (Some a). unfold half_of. rewrite EV. cbn [rbind]. destruct verbose.
  - destruct (probability_ok v x X ltac:(lia)) as (s & EP & TP). rewrite EP. cbn [rbind]. rewrite EW. cbn [rbind].
    destruct (matrix_ok o rows m names W srt C ltac:(lia) MP LN PS (FN eq_refl)) as (M & EM & MM). rewrite EM. cbn [rbind].
    eexists. split; [exact ES|]. split; [exact EA|]. split; [reflexivity|]. split; [|split; [exact C|exists M; auto]].
    exists x. cbn [h_analysis h_said]. rewrite <- DF. repeat split; try apply FR; auto; try apply (RJ H). exists s. auto.
  - cbn [rbind]. rewrite EW. cbn [rbind]. eexists. split; [exact ES|]. split; [exact EA|]. split; [reflexivity|]. split; [|split; [exact C|reflexivity]].
    exists x. cbn [h_analysis h_said]. repeat split; try apply FR; auto; apply (RJ H).
Qed.
Lemma few_own row : few_values (length row) row.
Proof. exists row. split; [lia|]. intros x I. apply Exists_exists. exists x. split; [exact I|reflexivity]. Qed.
Lemma systems_shape n m P : length P = n -> shape m n (systems_rows P m).
Proof.
  intro L. unfold systems_rows. split; [rewrite map_length, seq_length; reflexivity|]. intros j J.
  rewrite (nth_indep _ [] (sys P 0)) by (rewrite map_length, seq_length; exact J). rewrite map_nth, seq_nth by exact J. rewrite sys_len. exact L.
Qed.
Lemma systems_nth P m j : j < m -> nth j (systems_rows P m) [] = sys P j.
Proof. intro J. unfold systems_rows. rewrite (nth_indep _ [] (sys P 0)) by (rewrite map_length, seq_length; exact J). rewrite map_nth, seq_nth by exact J. reflexivity. Qed.

Lemma systems_ok verbose o names titles P r : ranked o names titles P r -> shape (length names) (length titles) P ->
  1 <= length names -> 2 <= length titles -> (verbose = true -> Forall (fun s => length s <= 17) titles) ->
  exists h, systems_half verbose r = Ok h /\ analysed verbose o P (length titles) titles (r_blk_srt_ind r) h.
Proof.
  intros (N1 & N2 & N3 & N4 & N5 & S1 & S2 & RK & (O1 & _) & _) SP NP MP FN. rewrite map_length, seq_length in O1.
  unfold systems_half. rewrite N1, N2, N4.
  destruct (half_ok verbose o P (r_trt_ranks r) (length names) (length titles) (length titles) titles (r_blk_srt_ind r) SP S1) as (sums & a & h & -> & -> & E & A); auto.
  - intros i j I J. apply RK; assumption.
  - intros i I. left. destruct SP as (L & SP). rewrite <- (SP i I). apply few_own.
  - exists h. split; [exact E|exact A].
Qed.
Lemma speakers_ok verbose o names titles P r : ranked o names titles P r -> shape (length names) (length titles) P ->
  2 <= length titles <= length names -> (forall j, j < length titles -> few_values (length titles) (sys P j) \/ all_different (sys P j)) ->
  (verbose = true -> Forall (fun s => length s <= 17) names) ->
  exists h, speakers_half verbose r = Ok h /\ analysed verbose o (systems_rows P (length titles)) (length names) names (r_trt_srt_ind r) h.
Proof.
  intros (N1 & N2 & N3 & N4 & N5 & S1 & S2 & RK & _ & (O2 & _)) SP MP FV FN. rewrite map_length, seq_length in O2.
  unfold speakers_half. rewrite N1, N2, N3. pose proof SP as (LP & _).
  destruct (half_ok verbose o (systems_rows P (length titles)) (r_blk_ranks r) (length titles) (length names) (length titles) names (r_trt_srt_ind r) (systems_shape _ _ _ LP) S2) as (sums & a & h & -> & -> & E & A); auto; try lia.
  - intros i j I J. rewrite systems_nth by exact I. rewrite sys_nth by lia. apply RK; assumption.
  - intros i I. rewrite systems_nth by exact I. auto.
  - exists h. split; [|exact A]. cbn [rbind]. rewrite (mapm_ok known (fun o => match o with Some s => s | None => [] end)).
    + cbn [rbind]. rewrite map_map, map_id. exact E.
    + intros x I. apply in_map_iff in I. destruct I as (s & <- & _). reflexivity.
Qed.
Lemma speakers_undef verbose o names titles P r : ranked o names titles P r -> shape (length names) (length titles) P ->
  1 <= length names < length titles -> speakers_half verbose r = Undef.
Proof.
  intros (N1 & N2 & N3 & N4 & N5 & S1 & S2 & RK & _ & _) SP MP. pose proof SP as (LP & _).
  unfold speakers_half. rewrite N1, N2.
  assert (RK' : forall i j, i < length titles -> j < length names -> (nth j (nth i (r_blk_ranks r) []) 0 == rank_in o (nth i (systems_rows P (length titles)) []) (nth j (nth i (systems_rows P (length titles)) []) 0))%Q).
  { intros i j I J. rewrite systems_nth by exact I. rewrite sys_nth by lia. apply RK; assumption. }
  destruct (sums_ok o (systems_rows P (length titles)) (r_blk_ranks r) (length titles) (length names) (systems_shape _ _ _ LP) S2 RK') as (sums & -> & _). cbn [rbind].
  unfold calc_adjust.
  assert (U : mapm (fun i => rbind (mapm (fun j => cell_q (r_blk_ranks r) i j) (seq 0 (length names))) (fun xs => row_ties xs (length names) (length titles))) (seq 0 (length titles)) = Undef).
  { destruct (length titles) as [|t] eqn:ET; [lia|]. cbn [seq mapm].
    rewrite (mapm_ok _ (fun j => nth j (nth 0 (r_blk_ranks r) []) 0%Q)) by (intros j J; apply in_seq in J; apply (cell_read (r_blk_ranks r) (S t) (length names) S2); lia).
    cbn [rbind]. rewrite row_ties_undef; [reflexivity|rewrite map_length, seq_length; reflexivity|lia|].
    apply Forall_forall. intros y Y. apply in_map_iff in Y. destruct Y as (j & <- & J). apply in_seq in J. rewrite RK' by lia.
    unfold rank_in. intro Z.
    assert (G : forall k, (0 <= q k)%Q) by (intro k; change 0%Q with (q 0); apply q_ge; lia).
    pose proof (G (length (filter (better o (nth j (nth 0 (systems_rows P (S t)) []) 0%Q)) (nth 0 (systems_rows P (S t)) [])))) as G1.
    pose proof (G (length (filter (Qeq_bool (nth j (nth 0 (systems_rows P (S t)) []) 0%Q)) (nth 0 (systems_rows P (S t)) [])))) as G2.
    assert (G3 : (0 < (q (length (filter (Qeq_bool (nth j (nth 0 (systems_rows P (S t)) []) 0%Q)) (nth 0 (systems_rows P (S t)) []))) + 1) / 2)%Q) by (apply Qlt_shift_div_l; lra).
    cbv zeta in Z. lra. }
  rewrite U. reflexivity.
Qed.
Lemma systems_long o names titles P r : ranked o names titles P r -> shape (length names) (length titles) P ->
  1 <= length names -> 2 <= length titles -> Exists (fun s => 17 < length s) titles -> systems_half true r = Undef.
Proof.
  intros (N1 & N2 & N3 & N4 & N5 & S1 & S2 & RK & _) SP NP MP LO.
  assert (RK' : forall i j, i < length names -> j < length titles -> (nth j (nth i (r_trt_ranks r) []) 0 == rank_in o (nth i P []) (nth j (nth i P []) 0))%Q) by (intros i j I J; apply RK; assumption).
  unfold systems_half. rewrite N1, N2, N4.
  destruct (sums_ok o P (r_trt_ranks r) _ _ SP S1 RK') as (sums & -> & LS & S). cbn [rbind].
  destruct (adjust_ok o P (r_trt_ranks r) _ _ SP S1 RK' NP MP (length titles) (le_n _)) as (a & -> & A).
  { intros i I. left. destruct SP as (L & SP). rewrite <- (SP i I). apply few_own. }
  cbn [rbind]. destruct (stat_ok o P _ _ SP NP MP sums a LS S A) as (v & x & EV & X & _ & _ & DF). unfold half_of. rewrite EV. cbn [rbind].
  destruct (probability_ok v x X ltac:(lia)) as (s & -> & _). cbn [rbind].
  destruct SP as (LR & _). destruct (wins_ok o P _ _ sums LR NP MP LS S) as (W & -> & _). cbn [rbind]. unfold print_matrix.
  destruct (Nat.ltb_spec 20 (max_len titles + 3)) as [|L]; [reflexivity|]. exfalso.
  assert (L' : max_len titles <= 17) by lia. apply max_len_ok in L'. destruct L' as (_ & L'). apply Exists_exists in LO. destruct LO as (t & I & T).
  rewrite Forall_forall in L'. specialize (L' t I). cbv beta in L'. lia.
Qed.
