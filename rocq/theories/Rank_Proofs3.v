(** Range tables and GNUPLOT files. *)
From Coq Require Import List ZArith QArith Qabs Qround NArith Lqa Lia Arith Bool Permutation Sorted.
From Verif Require Import Base Order_Model Order_Spec Order_Proofs1 Summ_Model Summ_Spec Stats_Spec Summ_Proofs1 Rank_Model Rank_Spec Rank_Proofs1 Rank_Proofs2.
Import ListNotations.
Local Open Scope nat_scope.

(** ** fewer speakers *)
Lemma row_cases trt blk c b n : b < blk -> n <= trt -> row_of (mat trt blk c) n b = Undef \/ exists v, row_of (mat trt blk c) n b = Ok v.
Proof.
  intros B N. unfold row_of. assert (C : forall l, Forall (fun t => t < trt) l ->
    mapm (fun t => cell (mat trt blk c) b t) l = Undef \/ exists v, mapm (fun t => cell (mat trt blk c) b t) l = Ok v).
  { induction l as [|t l IH]; intro F; [right; exists []; reflexivity|]. inversion F as [|? ? F1 F2]; subst. cbn [mapm].
    unfold cell at 1 3. unfold mat at 1 3. rewrite !get_map_seq by exact B. cbn [rbind]. rewrite !get_map_seq by exact F1. cbn [rbind].
    destruct (c b t) as [x|]; cbn [known rbind]; [|left; reflexivity]. destruct (IH F2) as [->|(v & ->)]; cbn [rbind]; [left; reflexivity|right; eauto]. }
  apply C. apply Forall_forall. intros t T. apply in_seq in T. lia.
Qed.
Lemma uneven_undef qs f ss s : qsort_contract qs -> In s ss -> length (y_grps s) < num_blk ss -> init_rank qs f ss = Undef.
Proof.
  intros H I L. unfold init_rank. destruct (In_nth_error _ _ I) as (j & J).
  assert (JL : j < length ss) by (apply nth_error_Some; rewrite J; discriminate).
  assert (NB : exists names, blk_names ss (num_blk ss) = Ok names).
  { unfold blk_names. destruct (num_blk ss); [lia|]. destruct ss; [destruct I|]. eexists. reflexivity. }
  destruct NB as (names & ->). cbn [rbind]. rewrite init_fill. cbn [rbind]. unfold rank_on_pcts.
  rewrite mapm_undef; [reflexivity| |].
  - intros b B. apply in_seq in B. destruct (row_cases (length ss) (num_blk ss) (filled f ss) b (length ss)) as [->|(v & ->)]; [lia|lia|left; reflexivity|].
    cbn [rbind]. match goal with |- context [rank_pcts qs v ?o] => destruct (rank_pcts_ok qs v o H) as (p & r & -> & _) end. right. eexists. reflexivity.
  - exists (length (y_grps s)). split; [apply in_seq; lia|]. unfold row_of. rewrite mapm_undef; [reflexivity| |].
    + intros t T. apply in_seq in T. unfold cell, mat. rewrite get_map_seq by exact L. cbn [rbind]. rewrite get_map_seq by lia. cbn [rbind].
      destruct (filled f ss (length (y_grps s)) t); [right; eexists; reflexivity|left; reflexivity].
    + exists j. split; [apply in_seq; lia|]. unfold cell, mat. rewrite get_map_seq by exact L. cbn [rbind]. rewrite get_map_seq by lia. cbn [rbind].
      unfold filled. rewrite J. rewrite (proj2 (nth_error_None _ _)) by lia. reflexivity.
Qed.

(** ** highest and lowest *)
Lemma high_low_ok l : forall h w h' w', high_low l h w = (h', w') ->
  (h <= h')%Q /\ (w' <= w)%Q /\ Forall (fun x => (x <= h')%Q) l /\ Forall (fun x => (w' <= x)%Q) l /\
  (h' = h \/ In h' l) /\ (w' = w \/ In w' l).
Proof.
  induction l as [|x l IH]; intros h w h' w' E; cbn [high_low] in E.
  - injection E as <- <-. repeat split; auto; lra.
  - apply IH in E. destruct E as (A & B & C & D & F & G).
    destruct (Qle_bool x h) eqn:E1; destruct (Qle_bool w x) eqn:E2;
    rewrite ?Qle_bool_iff in *; 
    repeat match goal with H : Qle_bool ?a ?b = false |- _ => assert (~ (a <= b)%Q) by (rewrite <- Qle_bool_iff, H; discriminate); clear H end;
    (split; [lra|]; split; [lra|]; split; [constructor; [lra|exact C]|]; split; [constructor; [lra|exact D]|]);
    split; cbn [In]; intuition congruence.
Qed.
Lemma high_ok v h w h0 w0 : high_low v h0 w0 = (h, w) -> Exists (fun x => (h0 <= x)%Q) v -> greatest v h.
Proof.
  intros E X. apply high_low_ok in E. destruct E as (A & _ & C & _ & F & _). split; [|exact C].
  destruct F as [->|F]; apply Exists_exists.
  - apply Exists_exists in X. destruct X as (x & I & X). exists x. split; [exact I|]. rewrite Forall_forall in C. specialize (C x I). lra.
  - exists h. split; [exact F|reflexivity].
Qed.
Lemma low_ok v h w h0 w0 : high_low v h0 w0 = (h, w) -> Exists (fun x => (x <= w0)%Q) v -> least v w.
Proof.
  intros E X. apply high_low_ok in E. destruct E as (_ & A & _ & C & _ & F). split; [|exact C].
  destruct F as [->|F]; apply Exists_exists.
  - apply Exists_exists in X. destruct X as (x & I & X). exists x. split; [exact I|]. rewrite Forall_forall in C. specialize (C x I). lra.
  - exists w. split; [exact F|reflexivity].
Qed.
Definition right_sign (f : formula) (v : list Q) : Prop :=
  (f <> FW -> Forall (fun x => (0 <= x)%Q) v) /\ (f <> FE -> Forall (fun x => (x <= 100)%Q) v).
Lemma forall_exists {A} (R : A -> Prop) l : l <> [] -> Forall R l -> Exists R l.
Proof. destruct 2; [congruence|left; assumption]. Qed.
Lemma range_of_ok qs sqrt f v : qsort_contract qs -> v <> [] -> right_sign f v ->
  exists a, range_of qs sqrt v = Ok a /\ shows sqrt f v a.
Proof.
  intros H N (S1 & S2). unfold range_of. destruct (high_low v 0 100) as [h w] eqn:E. destruct (calc_double_ok qs v H) as (s & -> & D).
  cbn [rbind]. eexists. split; [reflexivity|]. unfold shows. cbn [a_mean a_dev a_high a_low].
  unfold describes in D. destruct v as [|x v]; [congruence|]. destruct D as (D1 & D2 & _). split; [exact D1|].
  split; [eexists; split; [reflexivity|exact D2]|]. split; intros [F|F].
  - apply (high_ok _ _ _ _ _ E), forall_exists; auto.
  - apply (high_ok _ _ _ _ _ E F).
  - apply (low_ok _ _ _ _ _ E), forall_exists; auto.
  - apply (low_ok _ _ _ _ _ E F).
Qed.
Lemma rate_sign n k x : rate n k x -> (0 <= x)%Q.
Proof.
  unfold rate. destruct (Nat.eqb_spec (words k) 0); intro R; [lra|].
  assert (W : (0 < q (words k))%Q) by (unfold q; change 0%Q with (inject_Z 0); rewrite <- Zlt_Qlt; lia).
  assert (M : (0 <= q n)%Q) by (unfold q; change 0%Q with (inject_Z 0); rewrite <- Zle_Qle; lia).
  destruct (Qlt_le_dec x 0) as [L|]; [|assumption]. exfalso. nra.
Qed.
Lemma percent_sign f k x : is_percentage f k x -> (f <> FW -> (0 <= x)%Q) /\ (f <> FE -> (x <= 100)%Q).
Proof.
  destruct f; cbn [is_percentage]; intro R; try contradiction.
  - split; [intros _; apply (rate_sign _ _ _ R)|intros _]. unfold rate in R. destruct (Nat.eqb_spec (words k) 0); [lra|].
    assert (W : (0 < q (words k))%Q) by (unfold q; change 0%Q with (inject_Z 0); rewrite <- Zlt_Qlt; lia).
    assert (M : (q (k_corr k) <= q (words k))%Q) by (unfold q; rewrite <- Zle_Qle; unfold words; lia). nra.
  - split; [intros _; apply (rate_sign _ _ _ R)|congruence].
  - split; [congruence|intros _]. apply rate_sign in R. lra.
Qed.
Lemma nth_error_ex {A} (l : list A) i : i < length l -> exists x, nth_error l i = Some x.
Proof. intro H. destruct (nth_error l i) eqn:E; [eauto|]. apply nth_error_None in E. lia. Qed.
Lemma cell_sign f names ss P i j : scored_on names ss -> table_of f ss (length names) P -> i < length names -> j < length ss ->
  (f <> FW -> (0 <= nth j (nth i P []) 0)%Q) /\ (f <> FE -> (nth j (nth i P []) 0 <= 100)%Q).
Proof.
  intros SO (_ & T) I J. destruct (T i I) as (_ & T'). destruct (nth_error_ex ss j J) as (s & ES).
  pose proof (names_lengths _ _ SO) as LN. rewrite Forall_forall in LN.
  destruct (nth_error_ex (y_grps s) i) as (k & EK); [rewrite (LN s); [exact I|eapply nth_error_In, ES]|].
  apply (percent_sign f k). apply (T' j s k ES EK).
Qed.
Lemma spk_sign f names ss P i : scored_on names ss -> table_of f ss (length names) P -> shape (length names) (length ss) P ->
  i < length names -> right_sign f (spk P i).
Proof.
  intros SO T SH I. pose proof (spk_len _ _ _ _ SH I) as L.
  split; intro F; apply Forall_forall; intros x X; apply (In_nth _ _ 0%Q) in X; destruct X as (j & J & <-); rewrite L in J;
  apply (cell_sign f names ss P i j SO T I J); exact F.
Qed.
Lemma sys_sign f names ss P j : scored_on names ss -> table_of f ss (length names) P -> shape (length names) (length ss) P ->
  j < length ss -> right_sign f (sys P j).
Proof.
  intros SO T (SL & _) J.
  split; intro F; apply Forall_forall; intros x X; apply (In_nth _ _ 0%Q) in X; destruct X as (i & I & <-); rewrite sys_len, SL in I;
  rewrite sys_nth by lia; apply (cell_sign f names ss P i j SO T I J); exact F.
Qed.

(** ** the graph *)
Lemma qlt_iff a b : qlt a b = true <-> (a < b)%Q.
Proof.
  unfold qlt. rewrite negb_true_iff. split.
  - intro E. destruct (Qlt_le_dec a b) as [|L]; [assumption|]. apply Qle_bool_iff in L. congruence.
  - intro L. destruct (Qle_bool b a) eqn:E; [|reflexivity]. apply Qle_bool_iff in E. lra.
Qed.
Lemma near_iff scale x j : qlt (x - ((1 # 10000) + nq scale / 2)) (nq j) && qlt (nq j) (x + ((1 # 10000) + nq scale / 2)) = true <-> near scale x (q j).
Proof.
  rewrite andb_true_iff, !qlt_iff. unfold near. rewrite Qabs_Qlt_condition. change (q scale) with (nq scale). change (q j) with (nq j).
  set (h := (nq scale / 2)%Q). split; intros (A & B); split; lra.
Qed.
Lemma mark_ok scale a j : drawn scale a (q j) (mark_at scale a j).
Proof.
  unfold mark_at. cbv zeta.
  match goal with |- context [if ?b then Bar else _] => destruct b eqn:E1 end.
  { apply near_iff in E1. exact E1. }
  assert (N1 : ~ near scale (a_mean a) (q j)) by (rewrite <- near_iff, E1; discriminate).
  match goal with |- context [if ?b then Plus else _] => destruct b eqn:E2 end.
  { apply orb_true_iff in E2. rewrite !near_iff in E2. split; assumption. }
  assert (N2 : ~ (near scale (a_mean a + a_dev a) (q j) \/ near scale (a_mean a - a_dev a) (q j))).
  { rewrite <- !near_iff. rewrite <- orb_true_iff, E2. discriminate. }
  match goal with |- context [if ?b then Blank else _] => destruct b eqn:E3 end.
  { apply orb_true_iff in E3. rewrite !qlt_iff in E3. split; [exact N1|]. split; [exact N2|]. exact E3. }
  split; [exact N1|]. split; [exact N2|]. apply orb_false_iff in E3. destruct E3 as (A & B).
  change (q j) with (nq j). split.
  - apply Qnot_lt_le. rewrite <- qlt_iff, B. discriminate.
  - apply Qnot_lt_le. rewrite <- qlt_iff, A. discriminate.
Qed.
Lemma graph_len scale a : length (graph scale a) = 100 / scale + 1.
Proof. unfold graph. rewrite map_length, seq_length. reflexivity. Qed.
Lemma graph_nth scale a k m : nth_error (graph scale a) k = Some m -> m = mark_at scale a (k * scale).
Proof.
  intro E. assert (L : k < length (graph scale a)) by (apply nth_error_Some; rewrite E; discriminate). rewrite graph_len in L.
  unfold graph in E. rewrite nth_error_map in E. rewrite (nth_error_nth' _ 0) in E by (rewrite seq_length; exact L).
  cbn [option_map] in E. rewrite seq_nth in E by exact L. cbn [Nat.add] in E. congruence.
Qed.
Lemma graph_ok scale a k m : nth_error (graph scale a) k = Some m -> drawn scale a (q (k * scale)) m.
Proof. intro E. apply graph_nth in E. subst m. apply mark_ok. Qed.
Lemma mean_drawn scale a : scale = 1 \/ scale = 2 -> (0 <= a_mean a <= 100)%Q -> In Bar (graph scale a).
Proof.
  intros S (M0 & M1). set (y := (a_mean a / q scale + (1 # 2))%Q).
  assert (SQ : q scale == 1 \/ q scale == 2) by (destruct S as [-> | ->]; [left|right]; reflexivity).
  assert (SP : (0 < q scale)%Q) by (destruct SQ as [-> | ->]; reflexivity).
  assert (ME : (a_mean a == (y - (1 # 2)) * q scale)%Q) by (unfold y; field; lra).
  pose proof (Qfloor_le y) as F1. pose proof (Qlt_floor y) as F2. rewrite inject_Z_plus in F2. change (inject_Z 1) with 1%Q in F2.
  set (z := Qfloor y) in *.
  assert (Z0 : (0 <= z)%Z).
  { assert (T : (0 <= a_mean a / q scale)%Q) by (apply Qle_shift_div_l; [exact SP|rewrite Qmult_0_l; exact M0]).
    assert (0 < y)%Q by (unfold y; revert T; generalize (a_mean a / q scale)%Q; intros t T; lra).
    assert (inject_Z (-1) < inject_Z z)%Q by (change (inject_Z (-1)) with (-1)%Q; lra). rewrite <- Zlt_Qlt in H0. lia. }
  assert (Z1 : (z * Z.of_nat scale <= 100)%Z).
  { assert (inject_Z (z * Z.of_nat scale) < 102)%Q.
    { rewrite inject_Z_mult. fold (q scale). destruct SQ as [E|E]; rewrite E in *; lra. }
    change 102%Q with (inject_Z 102) in H. rewrite <- Zlt_Qlt in H.
    destruct S as [-> | ->]; [|lia].
    assert (inject_Z z < 101)%Q by (change (q 1) with 1%Q in ME; lra).
    change 101%Q with (inject_Z 101) in H0. rewrite <- Zlt_Qlt in H0. lia. }
  set (k := Z.to_nat z). assert (KZ : Z.of_nat k = z) by (unfold k; lia).
  assert (KL : k < 100 / scale + 1).
  { destruct S as [-> | ->]; cbn [Nat.div Nat.divmod fst]; lia. }
  assert (NR : near scale (a_mean a) (q (k * scale))).
  { unfold near. apply Qabs_Qlt_condition. assert (HS : (q scale / 2 == (1 # 2) * q scale)%Q) by field. rewrite HS.
    assert (HK : (q (k * scale) == inject_Z z * q scale)%Q) by (unfold q at 1; rewrite Nat2Z.inj_mul, KZ, inject_Z_mult; reflexivity). rewrite HK.
    destruct SQ as [E|E]; rewrite E in *; split; lra. }
  apply (nth_error_In _ k). unfold graph. rewrite nth_error_map. rewrite (nth_error_nth' _ 0) by (rewrite seq_length; exact KL).
  rewrite seq_nth by exact KL. cbn [option_map Nat.add]. f_equal. apply near_iff in NR. unfold mark_at. cbv zeta. rewrite NR. reflexivity.
Qed.
