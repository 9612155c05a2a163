(** The table of percentages and its ranks. *)
From Coq Require Import List ZArith QArith NArith Lqa Lia Arith Bool Permutation Sorted.
From Verif Require Import Base Order_Model Order_Spec Order_Proofs1 Summ_Model Stats_Spec Summ_Proofs1 Rank_Model Rank_Spec Rank_Proofs1.
Import ListNotations.
Local Open Scope nat_scope.

Section Fill.
Variables (trt blk : nat).
Definition mat (c : nat -> nat -> option Q) : list (list (option Q)) := map (fun i => map (c i) (seq 0 trt)) (seq 0 blk).
Lemma mat_ext c c' : (forall i j, i < blk -> j < trt -> c i j = c' i j) -> mat c = mat c'.
Proof.
  intro H. apply map_ext_in. intros i I. apply map_ext_in. intros j J. apply in_seq in I, J. apply H; lia.
Qed.
Lemma fill_grps_ok f n : forall ks g c, n < trt -> g + length ks <= blk ->
  fill_grps f n g ks (mat c) = Ok (mat (fun i j => if (j =? n) && (g <=? i) && (i <? g + length ks)
     then match nth_error ks (i - g) with Some k => match percentage f k with Some x => Some x | None => c i j end | None => c i j end else c i j)).
Proof.
  induction ks as [|k ks IH]; intros g c N G; cbn [fill_grps].
  - f_equal. apply mat_ext. intros i j _ _. cbn [length]. destruct (Nat.leb_spec g i), (Nat.ltb_spec i (g + 0)); try lia; rewrite ?andb_false_r; reflexivity.
  - cbn [length] in G. destruct (percentage f k) as [x|] eqn:PK.
    + unfold mat at 1. rewrite get_map_seq by lia. cbn [rbind]. rewrite set_map_seq by lia. cbn [rbind].
      unfold mat. rewrite set_map_seq by lia. cbn [rbind].
      match goal with |- fill_grps _ _ _ _ ?m = _ => replace m with (mat (fun i j => if (i =? g) && (j =? n) then Some x else c i j)) end.
      2:{ apply map_ext_in. intros i I. cbn [Nat.add]. destruct (Nat.eqb_spec i g) as [->|]; [|reflexivity].
          apply map_ext_in. intros j J. reflexivity. }
      rewrite IH by lia. f_equal. apply mat_ext. intros i j I J. cbn [length].
      destruct (Nat.eqb_spec j n) as [->|]; cbn [andb]; [|rewrite andb_false_r; reflexivity].
      rewrite andb_true_r. destruct (Nat.eqb_spec i g) as [->|NE].
      * destruct (Nat.leb_spec (g + 1) g); [lia|]. cbn [andb]. rewrite Nat.leb_refl. destruct (Nat.ltb_spec g (g + S (length ks))); [|lia].
        cbn [andb]. rewrite Nat.sub_diag. cbn [nth_error]. rewrite PK. reflexivity.
      * destruct (Nat.leb_spec (g + 1) i), (Nat.leb_spec g i); try lia; cbn [andb]; try reflexivity.
        replace (g + 1 + length ks) with (g + S (length ks)) by lia. replace (i - g) with (S (i - (g + 1))) by lia. reflexivity.
    + rewrite IH by lia. f_equal. apply mat_ext. intros i j I J. cbn [length].
      destruct (Nat.eqb_spec j n) as [->|]; cbn [andb]; [|reflexivity].
      replace (g + 1 + length ks) with (g + S (length ks)) by lia.
      destruct (Nat.eq_dec i g) as [->|NE].
      * destruct (Nat.leb_spec (g + 1) g); [lia|]. cbn [andb]. rewrite Nat.leb_refl. destruct (Nat.ltb_spec g (g + S (length ks))); [|lia].
        cbn [andb]. rewrite Nat.sub_diag. cbn [nth_error]. rewrite PK. reflexivity.
      * destruct (Nat.leb_spec (g + 1) i), (Nat.leb_spec g i); try lia; cbn [andb]; try reflexivity.
        replace (i - g) with (S (i - (g + 1))) by lia. reflexivity.
Qed.
(** the cell after the systems from [n] on *)
Definition filled (f : formula) (ss : list system) (i j : nat) : option Q :=
  match nth_error ss j with
  | Some s => match nth_error (y_grps s) i with Some k => percentage f k | None => None end
  | None => None
  end.
Lemma fill_ok f : forall ss n c, n + length ss <= trt -> Forall (fun s => length (y_grps s) <= blk) ss ->
  (forall i j, n <= j -> c i j = None) ->
  fill f n ss (mat c) = Ok (mat (fun i j => if n <=? j then filled f ss i (j - n) else c i j)).
Proof.
  induction ss as [|s ss IH]; intros n c L F C; cbn [fill].
  - f_equal. apply mat_ext. intros i j _ _. destruct (Nat.leb_spec n j); [|reflexivity]. rewrite C by lia.
    unfold filled. destruct (j - n); reflexivity.
  - cbn [length] in L. inversion F as [|? ? F1 F2]; subst. rewrite fill_grps_ok by lia. cbn [rbind]. rewrite IH; try lia; try assumption.
    + f_equal. apply mat_ext. intros i j I J. destruct (Nat.leb_spec (n + 1) j).
      * destruct (Nat.leb_spec n j); [|lia]. unfold filled. replace (j - n) with (S (j - (n + 1))) by lia. reflexivity.
      * destruct (Nat.eqb_spec j n) as [->|]; cbn [andb].
        -- rewrite Nat.leb_refl, Nat.sub_diag, Nat.sub_0_r. cbn [Nat.leb andb]. unfold filled. cbn [nth_error Nat.add].
           rewrite C by lia. destruct (Nat.ltb_spec i (length (y_grps s))).
           ++ destruct (nth_error (y_grps s) i) as [k|]; [|reflexivity]. destruct (percentage f k); reflexivity.
           ++ rewrite (proj2 (nth_error_None _ _)) by lia. reflexivity.
        -- destruct (Nat.leb_spec n j); [lia|reflexivity].
    + intros i j J. destruct (Nat.eqb_spec j n); [lia|]. cbn [andb]. apply C. lia.
Qed.
End Fill.

Lemma repeat_map_seq {A} (x : A) n : forall k, repeat x n = map (fun _ => x) (seq k n).
Proof. induction n as [|n IH]; intro k; [reflexivity|]. cbn [repeat seq map]. f_equal. apply IH. Qed.
Lemma empty_mat trt blk : repeat (repeat None trt) blk = mat trt blk (fun _ _ => None).
Proof. unfold mat. rewrite (repeat_map_seq _ blk 0). apply map_ext. intro i. apply repeat_map_seq. Qed.
Lemma num_blk_max ss : forall k, k <= fold_left (fun blk s => if blk <? length (y_grps s) then length (y_grps s) else blk) ss k /\
  Forall (fun s => length (y_grps s) <= fold_left (fun blk s => if blk <? length (y_grps s) then length (y_grps s) else blk) ss k) ss.
Proof.
  induction ss as [|s ss IH]; intro k; cbn [fold_left]; [split; [lia|constructor]|].
  destruct (Nat.ltb_spec k (length (y_grps s))).
  - destruct (IH (length (y_grps s))) as (A & B). split; [lia|]. constructor; [lia|exact B].
  - destruct (IH k) as (A & B). split; [lia|]. constructor; [lia|exact B].
Qed.
Lemma num_blk_ge ss : Forall (fun s => length (y_grps s) <= num_blk ss) ss.
Proof. apply num_blk_max. Qed.
Lemma num_blk_in ss : forall k n, Forall (fun s => length (y_grps s) = n) ss ->
  fold_left (fun blk s => if blk <? length (y_grps s) then length (y_grps s) else blk) ss k = match ss with [] => k | _ => Nat.max k n end.
Proof.
  induction ss as [|s ss IH]; intros k n F; [reflexivity|]. inversion F as [|? ? F1 F2]; subst. cbn [fold_left].
  rewrite (IH _ (length (y_grps s))) by assumption. destruct ss; destruct (Nat.ltb_spec k (length (y_grps s))); lia.
Qed.
Lemma init_fill f ss : fill f 0 ss (repeat (repeat None (length ss)) (num_blk ss)) = Ok (mat (length ss) (num_blk ss) (filled f ss)).
Proof.
  rewrite empty_mat, fill_ok; [|lia|apply num_blk_ge|reflexivity]. f_equal. apply mat_ext. intros i j _ _. cbn [Nat.leb]. rewrite Nat.sub_0_r. reflexivity.
Qed.

(** ** reading a full table *)
Lemma cell_ok n m P b t : shape n m P -> b < n -> t < m -> cell (map (map Some) P) b t = Ok (nth t (nth b P []) 0%Q).
Proof.
  intros (L & S) B T. unfold cell. rewrite (get_ok _ b (map Some [])) by (rewrite map_length; lia). rewrite map_nth. cbn [rbind].
  rewrite (get_ok _ t (Some 0%Q)) by (rewrite map_length, S; lia). rewrite map_nth. reflexivity.
Qed.
Lemma row_ok n m P b : shape n m P -> b < n -> row_of (map (map Some) P) m b = Ok (spk P b).
Proof.
  intros S B. unfold row_of. rewrite (mapm_ok _ (fun t => nth t (nth b P []) 0%Q)).
  - unfold spk. destruct S as (_ & S). rewrite <- (S b B). rewrite map_nth_seq. reflexivity.
  - intros t T. apply in_seq in T. apply (cell_ok n m); [exact S|lia|lia].
Qed.
Lemma sys_seq P t : sys P t = map (fun b => nth t (nth b P []) 0%Q) (seq 0 (length P)).
Proof. unfold sys. rewrite <- (map_map (fun b => nth b P []) (fun row => nth t row 0%Q)). rewrite map_nth_seq. reflexivity. Qed.
Lemma column_ok n m P t : shape n m P -> t < m -> column_of (map (map Some) P) n t = Ok (sys P t).
Proof.
  intros S T. unfold column_of. rewrite (mapm_ok _ (fun b => nth t (nth b P []) 0%Q)).
  - rewrite sys_seq. destruct S as (-> & _). reflexivity.
  - intros b B. apply in_seq in B. apply (cell_ok n m); [exact S|lia|lia].
Qed.
Lemma spk_len n m P i : shape n m P -> i < n -> length (spk P i) = m.
Proof. intros (_ & S) I. apply S, I. Qed.
Lemma sys_len P j : length (sys P j) = length P.
Proof. apply map_length. Qed.
Lemma sys_nth P j i : i < length P -> nth i (sys P j) 0%Q = nth j (spk P i) 0%Q.
Proof. intro H. unfold sys. rewrite (nth_indep _ 0%Q (nth j [] 0%Q)) by (rewrite map_length; exact H). rewrite (map_nth (fun row => nth j row 0%Q)). reflexivity. Qed.

Lemma lists_ext o v v' ptr : length v = length v' -> (forall i, i < length v -> (nth i v 0 == nth i v' 0)%Q) -> lists_in_order o v ptr -> lists_in_order o v' ptr.
Proof.
  intros L E (P & S). split; [rewrite <- L; exact P|]. revert S. apply sorted_weaken. intros x y X Y.
  apply (Permutation_in _ P) in X, Y. apply in_seq in X, Y. unfold in_order. destruct o; rewrite !E by lia; auto.
Qed.

Lemma rank_on_ok qs n m P o : qsort_contract qs -> shape n m P ->
  exists tr br bs ts, rank_on_pcts qs n m (map (map Some) P) o = Ok (tr, br, bs, ts) /\
  shape n m tr /\ shape m n br /\
  (forall i j, i < n -> j < m ->
     (nth j (nth i tr []) 0 == rank_in o (spk P i) (nth j (spk P i) 0))%Q /\
     (nth i (nth j br []) 0 == rank_in o (sys P j) (nth j (spk P i) 0))%Q) /\
  lists_in_order o (map (fun j => sum (sys P j)) (seq 0 m)) bs /\
  lists_in_order o (map (fun i => sum (spk P i)) (seq 0 n)) ts.
Proof.
  intros H S. unfold rank_on_pcts.
  destruct (mapm_ex (fun b => rbind (row_of (map (map Some) P) m b) (fun v => rbind (rank_pcts qs v o) (fun '(_, r) => Ok r)))
    (fun b r => length r = m /\ forall j, j < m -> (nth j r 0 == rank_in o (spk P b) (nth j (spk P b) 0))%Q) (seq 0 n)) as (tr & E1 & F1).
  { intros b B. apply in_seq in B. rewrite (row_ok n m) by (auto; lia). cbn [rbind].
    destruct (rank_pcts_ok qs (spk P b) o H) as (ptr & rk & E & L & _ & R). rewrite E. exists rk. split; [reflexivity|].
    rewrite (spk_len n m) in * by (auto; lia). auto. }
  rewrite E1. cbn [rbind].
  destruct (mapm_ex (fun t => rbind (column_of (map (map Some) P) n t) (fun v => rbind (rank_pcts qs v o) (fun '(_, r) => Ok r)))
    (fun t r => length r = n /\ forall i, i < n -> (nth i r 0 == rank_in o (sys P t) (nth t (spk P i) 0))%Q) (seq 0 m)) as (br & E2 & F2).
  { intros t T. apply in_seq in T. rewrite (column_ok n m) by (auto; lia). cbn [rbind].
    destruct (rank_pcts_ok qs (sys P t) o H) as (ptr & rk & E & L & _ & R). rewrite E. exists rk. split; [reflexivity|].
    rewrite sys_len in *. destruct S as (SL & _). rewrite SL in *. split; [exact L|]. intros i I. rewrite R by exact I.
    rewrite sys_nth by lia. reflexivity. }
  rewrite E2. cbn [rbind].
  rewrite (mapm_ok _ (fun t => total (sys P t))).
  2:{ intros t T. apply in_seq in T. rewrite (column_ok n m) by (auto; lia). reflexivity. }
  cbn [rbind]. rewrite (mapm_ok _ (fun b => total (spk P b))).
  2:{ intros b B. apply in_seq in B. rewrite (row_ok n m) by (auto; lia). reflexivity. }
  cbn [rbind].
  destruct (rank_pcts_ok qs (map (fun t => total (sys P t)) (seq 0 m)) o H) as (bs & rb & -> & _ & SB & _). cbn [rbind].
  destruct (rank_pcts_ok qs (map (fun b => total (spk P b)) (seq 0 n)) o H) as (ts & rt & -> & _ & ST & _). cbn [rbind].
  exists tr, br, bs, ts. split; [reflexivity|].
  split; [destruct (Forall2_nth_seq _ n tr [] 0 F1) as (G0 & G1); split; [exact G0|intros i I; apply (G1 i I)]|].
  split; [destruct (Forall2_nth_seq _ m br [] 0 F2) as (G0 & G1); split; [exact G0|intros i I; apply (G1 i I)]|].
  split; [|split].
  - intros i j I J. destruct (Forall2_nth_seq _ n tr [] 0 F1) as (_ & G1). destruct (Forall2_nth_seq _ m br [] 0 F2) as (_ & G2).
    split; [apply (G1 i I), J|apply (G2 j J), I].
  - revert SB. apply lists_ext; [rewrite !map_length; reflexivity|]. intros i I. rewrite map_length, seq_length in I.
    rewrite !(nth_indep _ 0%Q (total (sys P 0))) by (rewrite map_length, seq_length; exact I).
    rewrite (map_nth (fun t => total (sys P t))), seq_nth by exact I.
    rewrite (nth_indep _ (total (sys P 0)) (sum (sys P 0))) by (rewrite map_length, seq_length; exact I).
    rewrite (map_nth (fun t => sum (sys P t))), seq_nth by exact I. apply total_ok.
  - revert ST. apply lists_ext; [rewrite !map_length; reflexivity|]. intros i I. rewrite map_length, seq_length in I.
    rewrite !(nth_indep _ 0%Q (total (spk P 0))) by (rewrite map_length, seq_length; exact I).
    rewrite (map_nth (fun t => total (spk P t))), seq_nth by exact I.
    rewrite (nth_indep _ (total (spk P 0)) (sum (spk P 0))) by (rewrite map_length, seq_length; exact I).
    rewrite (map_nth (fun t => sum (spk P t))), seq_nth by exact I. apply total_ok.
Qed.

(** ** the percentages *)
Lemma nq_pos n : n <> 0 -> ~ (nq n == 0)%Q.
Proof. intros H E. change 0%Q with (inject_Z 0) in E. apply (proj1 (inject_Z_injective _ _)) in E. lia. Qed.
Lemma pct_rate num k dem : dem = words k -> rate num k (pct_int num dem).
Proof.
  intros ->. unfold rate, pct_int. destruct (Nat.eqb_spec (words k) 0); [reflexivity|].
  pose proof (nq_pos _ n) as H. unfold q. fold (nq (words k)). fold (nq num). field. exact H.
Qed.
Lemma percentage_ok f k : f <> Fother -> exists x, percentage f k = Some x /\ is_percentage f k x.
Proof.
  intro H. destruct f; [| | |congruence]; cbn [percentage is_percentage]; cbv zeta; eexists; (split; [reflexivity|]).
  - apply pct_rate. reflexivity.
  - replace (errors k) with (k_ins k + k_sub k + k_del k) by (unfold errors; lia). apply pct_rate. unfold words. lia.
  - replace (errors k) with (k_ins k + k_sub k + k_del k) by (unfold errors; lia).
    pose proof (pct_rate (k_ins k + k_sub k + k_del k) k (k_corr k + k_del k + k_sub k) ltac:(unfold words; lia)) as R.
    unfold rate in *. destruct (words k =? 0).
    + lra.
    + rewrite <- R. ring.
Qed.
Definition val (f : formula) (k : speaker) : Q := match percentage f k with Some x => x | None => 0%Q end.

Lemma names_lengths names ss : scored_on names ss -> Forall (fun s => length (y_grps s) = length names) ss.
Proof. unfold scored_on. apply Forall_impl. intros s <-. rewrite map_length. reflexivity. Qed.
Lemma init_ok qs f names ss : qsort_contract qs -> f <> Fother -> ss <> [] -> scored_on names ss ->
  exists r P, init_rank qs f ss = Ok r /\ table_of f ss (length names) P /\ shape (length names) (length ss) P /\
    ranked (best_first f) names (map y_title ss) P r.
Proof.
  intros H F NE SO. pose proof (names_lengths _ _ SO) as LN.
  assert (NB : num_blk ss = length names). { unfold num_blk. rewrite (num_blk_in ss 0 _ LN). destruct ss; [congruence|reflexivity]. }
  set (n := length names) in *. set (m := length ss).
  set (c := fun i j => match filled f ss i j with Some x => x | None => 0%Q end).
  set (P := map (fun i => map (c i) (seq 0 m)) (seq 0 n)).
  assert (FI : forall i j, i < n -> j < m -> filled f ss i j = Some (c i j) /\
     forall s k, nth_error ss j = Some s -> nth_error (y_grps s) i = Some k -> is_percentage f k (c i j)).
  { intros i j I J. unfold c. unfold filled. destruct (nth_error ss j) as [s|] eqn:ES; [|apply nth_error_None in ES; unfold m in *; lia].
    assert (LS : length (y_grps s) = n) by (rewrite Forall_forall in LN; apply LN; eapply nth_error_In, ES).
    destruct (nth_error (y_grps s) i) as [k|] eqn:EK; [|apply nth_error_None in EK; lia].
    destruct (percentage_ok f k F) as (x & -> & X). split; [reflexivity|]. intros s' k' E' K'. injection E' as <-. congruence. }
  assert (SH : shape n m P).
  { split; [unfold P; rewrite map_length, seq_length; reflexivity|]. intros i I. unfold P.
    rewrite (nth_indep _ [] (map (c 0) (seq 0 m))) by (rewrite map_length, seq_length; exact I).
    rewrite (map_nth (fun i => map (c i) (seq 0 m))), map_length, seq_length. reflexivity. }
  assert (NP : forall i j, i < n -> j < m -> nth j (nth i P []) 0%Q = c i j).
  { intros i j I J. unfold P. rewrite (nth_indep _ [] (map (c 0) (seq 0 m))) by (rewrite map_length, seq_length; exact I).
    rewrite (map_nth (fun i => map (c i) (seq 0 m))), seq_nth by exact I.
    rewrite (nth_indep _ 0%Q (c (0 + i) 0)) by (rewrite map_length, seq_length; exact J). rewrite (map_nth (c (0 + i))), seq_nth by exact J. reflexivity. }
  assert (MP : mat m n (filled f ss) = map (map Some) P).
  { unfold mat, P. rewrite map_map. apply map_ext_in. intros i I. rewrite map_map. apply map_ext_in. intros j J.
    apply in_seq in I, J. apply FI; lia. }
  destruct (rank_on_ok qs n m P (best_first f) H SH) as (tr & br & bs & ts & ER & S1 & S2 & R1 & R2 & R3).
  unfold init_rank. fold m. rewrite NB.
  assert (EN : blk_names ss n = Ok (map Some names)).
  { unfold blk_names. destruct ss as [|s ss']; [congruence|]. inversion SO as [|? ? SN _]; subst.
    destruct n as [|n'] eqn:En.
    - subst n. destruct (map k_name (y_grps s)); [reflexivity|discriminate].
    - rewrite <- En. cbn [get nth_error rbind]. f_equal. transitivity (map (fun i => nth i (map Some (map k_name (y_grps s))) None) (seq 0 n)).
      + apply map_ext_in. intros i I. apply in_seq in I. destruct (nth_error (y_grps s) i) as [k|] eqn:EK.
        * cbn [option_map]. symmetry. apply nth_error_nth. rewrite !nth_error_map, EK. reflexivity.
        * apply nth_error_None in EK. rewrite nth_overflow; [reflexivity|]. rewrite !map_length. exact EK.
      + unfold n. rewrite <- (map_length Some (map k_name (y_grps s))). apply map_nth_seq. }
  rewrite EN. cbn [rbind]. rewrite <- NB. unfold m. rewrite init_fill. cbn [rbind]. fold m. rewrite NB, MP.
  replace (match f with FE => Increasing | _ => Decreasing end) with (best_first f) by reflexivity. rewrite ER. cbn [rbind].
  eexists. exists P. split; [reflexivity|]. split; [|split; [exact SH|]].
  - split; [apply SH|]. intros i I. split; [apply SH, I|]. intros j s k ES EK. fold (spk P i).
    assert (J : j < m) by (apply nth_error_Some; rewrite ES; discriminate). unfold spk. rewrite (NP i j I J). apply (proj2 (FI i j I J) s k ES EK).
  - unfold ranked. cbn [r_n_blk r_n_trt r_blk_name r_trt_name r_pcts r_trt_ranks r_blk_ranks r_blk_srt_ind r_trt_srt_ind].
    rewrite map_length. fold m n. auto 12.
Qed.
