From Coq Require Import List Arith ZArith NArith QArith Bool Permutation Sorted Lia.
From Verif Require Import Base Order_Model Order_Spec Order_Proofs1.
Import ListNotations.
Local Open Scope nat_scope.

Section Rank.
Variables (arr : list Z) (ptr : list nat) (o : order).
Hypothesis Hs : sorts o arr ptr.
Notation num := (length arr).
Notation P := (P ptr).
Notation V := (V arr ptr).

Lemma get_ptr i : i < num -> get ptr i = Ok (P i).
Proof. intros H. apply get_ok. rewrite (ptr_len arr ptr o Hs). exact H. Qed.
Lemma get_arr i : i < num -> get arr (P i) = Ok (V i).
Proof. intros H. apply get_ok. apply (P_lt arr ptr o Hs). exact H. Qed.

Lemma last_dup_ok : forall fuel c, c < num -> num - c < fuel ->
  exists e, last_dup fuel arr ptr num c = Ok e /\ c <= e < num /\ (forall i, c <= i <= e -> V i = V c)
    /\ (S e < num -> V e <> V (S e)).
Proof.
  induction fuel as [|fuel IH]; intros c Hc Hf; [lia|]. cbn [last_dup].
  destruct (Nat.ltb_spec c (num - 1)) as [Hl|Hl].
  - rewrite !get_ptr by lia. cbn [rbind]. rewrite !get_arr by lia. cbn [rbind]. rewrite Nat.add_1_r.
    destruct (Z.eqb_spec (V c) (V (S c))) as [E|N].
    + destruct (IH (S c)) as (e & Ee & He & Hall & Hlast); [lia|lia|]. exists e. split; [exact Ee|]. split; [lia|].
      split; [|exact Hlast]. intros i Hi. destruct (Nat.eq_dec i c) as [->|]; [reflexivity|]. rewrite E. apply Hall. lia.
    + exists c. split; [reflexivity|]. split; [lia|]. split; [|auto]. intros i Hi. f_equal. lia.
  - exists c. split; [reflexivity|]. split; [lia|]. split; [|lia]. intros i Hi. f_equal. lia.
Qed.

Lemma install_ok r : forall k i ranks, i + k <= num -> length ranks = num ->
  exists ranks', install k i ptr r ranks = Ok ranks' /\ length ranks' = num /\
    (forall m, i <= m < i + k -> nth (P m) ranks' 0%Q = r) /\
    (forall m, m < num -> m < i \/ i + k <= m -> nth (P m) ranks' 0%Q = nth (P m) ranks 0%Q).
Proof.
  induction k as [|k IH]; intros i ranks Hi Hl; cbn [install].
  - exists ranks. split; [reflexivity|]. split; [exact Hl|]. split; [lia|auto].
  - rewrite get_ptr by lia. cbn [rbind].
    destruct (set_ok ranks (P i) r 0%Q) as (r1 & -> & L1 & E1 & F1); [rewrite Hl; apply (P_lt arr ptr o Hs); lia|].
    cbn [rbind]. rewrite Nat.add_1_r. destruct (IH (S i) r1) as (r2 & E2 & L2 & A2 & B2); [lia|lia|].
    exists r2. split; [exact E2|]. split; [exact L2|]. split.
    + intros m Hm. destruct (Nat.eq_dec m i) as [->|Hn]; [|apply A2; lia]. rewrite B2 by lia. exact E1.
    + intros m Hm Ho. rewrite B2 by lia. apply F1. intros K. apply (P_inj arr ptr o Hs) in K; lia.
Qed.

(** a run of equal values between two changes *)
Definition run_at (j e : nat) : Prop :=
  j <= e < num /\ (forall i, j <= i <= e -> V i = V j) /\ (0 < j -> V (j - 1) <> V j) /\ (S e < num -> V e <> V (S e)).
Lemma run_before j e i : run_at j e -> i < j -> before o (V i) (V j).
Proof.
  intros (H1 & H2 & H3 & _) Hi. pose proof (V_sorted arr ptr o Hs i (j - 1)) as A.
  pose proof (V_sorted arr ptr o Hs (j - 1) j) as B. specialize (H3 ltac:(lia)).
  specialize (A ltac:(lia) ltac:(lia)). specialize (B ltac:(lia) ltac:(lia)).
  destruct o; cbn in *; lia.
Qed.
Lemma run_after j e i : run_at j e -> e < i -> i < num -> before o (V j) (V i).
Proof.
  intros (H1 & H2 & _ & H3) Hi Hn. pose proof (V_sorted arr ptr o Hs e (S e)) as A.
  pose proof (V_sorted arr ptr o Hs (S e) i) as B. specialize (H3 ltac:(lia)).
  specialize (A ltac:(lia) ltac:(lia)). specialize (B ltac:(lia) ltac:(lia)).
  rewrite <- (H2 e) by lia. destruct o; cbn in *; lia.
Qed.
Lemma filter_none {A} (f : A -> bool) l : (forall x, In x l -> f x = false) -> filter f l = [].
Proof. induction l as [|x l IH]; intros H; [reflexivity|]. cbn. rewrite (H x (or_introl eq_refl)). apply IH. intros y Hy. apply H. now right. Qed.
Lemma filter_all {A} (f : A -> bool) l : (forall x, In x l -> f x = true) -> filter f l = l.
Proof. induction l as [|x l IH]; intros H; [reflexivity|]. cbn. rewrite (H x (or_introl eq_refl)). f_equal. apply IH. intros y Hy. apply H. now right. Qed.

Lemma run_counts j e : run_at j e ->
  count (fun y => before_b o y (V j)) arr = j /\ count (fun y => (y =? V j)%Z) arr = S e - j.
Proof.
  intros R. pose proof R as (H1 & H2 & _ & _). rewrite !(count_V arr ptr o Hs).
  assert (E : seq 0 num = seq 0 j ++ seq j (S e - j) ++ seq (S e) (num - S e)).
  { replace (seq (S e) (num - S e)) with (seq (j + (S e - j)) (num - S e)) by (f_equal; lia).
    rewrite <- seq_app. replace (S e - j + (num - S e)) with (num - j) by lia.
    change j with (0 + j) at 2. rewrite <- seq_app. f_equal. lia. }
  rewrite E, !filter_app, !app_length. split.
  - rewrite filter_all, (filter_none _ (seq j _)), (filter_none _ (seq (S e) _)); [rewrite seq_length; cbn; lia| | |].
    + intros i Hi. apply in_seq in Hi. pose proof (run_after j e i R ltac:(lia) ltac:(lia)). destruct o; cbn in *; apply Z.ltb_ge; lia.
    + intros i Hi. apply in_seq in Hi. rewrite (H2 i) by lia. destruct o; cbn; apply Z.ltb_irrefl.
    + intros i Hi. apply in_seq in Hi. pose proof (run_before j e i R ltac:(lia)). destruct o; cbn in *; apply Z.ltb_lt; lia.
  - rewrite (filter_none _ (seq 0 j)), filter_all, (filter_none _ (seq (S e) _)); [rewrite seq_length; cbn; lia| | |].
    + intros i Hi. apply in_seq in Hi. pose proof (run_after j e i R ltac:(lia) ltac:(lia)). apply Z.eqb_neq. intros K. destruct o; cbn in *; lia.
    + intros i Hi. apply in_seq in Hi. rewrite (H2 i) by lia. apply Z.eqb_refl.
    + intros i Hi. apply in_seq in Hi. pose proof (run_before j e i R ltac:(lia)). apply Z.eqb_neq. intros K. destruct o; cbn in *; lia.
Qed.
Lemma sum_S l : list_sum (map S l) = list_sum l + length l.
Proof. induction l as [|x l IH]; [reflexivity|]. unfold list_sum in *. cbn [map fold_right length]. rewrite IH. lia. Qed.
Lemma rank_value j e : run_at j e ->
  (inject_Z (Z.of_nat (list_sum (seq j (S e - j)))) / inject_Z (Z.of_nat (S e - j)) + 1 == mean_rank o arr (V j))%Q.
Proof.
  intros R. destruct (run_counts j e R) as (E1 & E2). unfold mean_rank. rewrite E1, E2, sum_S, seq_length.
  rewrite Nat2Z.inj_add, inject_Z_plus. field. intros K. destruct R as (H & _).
  unfold Qeq, inject_Z in K. cbn [Qnum Qden] in K. lia.
Qed.
Lemma rank_single j : run_at j j -> (inject_Z (Z.of_nat (j + 1)) == mean_rank o arr (V j))%Q.
Proof.
  intros R. rewrite <- (rank_value j j R). replace (S j - j) with 1 by lia. cbn [seq list_sum fold_right].
  rewrite Nat.add_0_r, Nat2Z.inj_add, inject_Z_plus. field.
Qed.

Lemma rank_loop_ok : forall fuel j ranks, num - j < fuel -> length ranks = num -> j <= num ->
  (0 < j -> j < num -> V (j - 1) <> V j) ->
  (forall i, i < j -> (nth (P i) ranks 0 == mean_rank o arr (V i))%Q) ->
  exists ranks', rank_loop fuel arr ptr num j ranks = Ok ranks' /\ length ranks' = num /\
    (forall i, i < num -> (nth (P i) ranks' 0 == mean_rank o arr (V i))%Q).
Proof.
  induction fuel as [|fuel IH]; intros j ranks Hf Hl Hj Hb Hd; [lia|]. cbn [rank_loop].
  destruct (Nat.leb_spec num j) as [Hn|Hn].
  { exists ranks. split; [reflexivity|]. split; [exact Hl|]. intros i Hi. apply Hd. lia. }
  assert (Single : (S j < num -> V j <> V (S j)) -> exists ranks',
    rbind (get ptr j) (fun p => rbind (set ranks p (inject_Z (Z.of_nat (j + 1)))) (fun ranks => rank_loop fuel arr ptr num (j + 1) ranks)) = Ok ranks' /\
    length ranks' = num /\ (forall i, i < num -> (nth (P i) ranks' 0 == mean_rank o arr (V i))%Q)).
  { intros Hne. rewrite get_ptr by lia. cbn [rbind].
    destruct (set_ok ranks (P j) (inject_Z (Z.of_nat (j + 1))) 0%Q) as (r1 & -> & L1 & E1 & F1); [rewrite Hl; apply (P_lt arr ptr o Hs); lia|].
    cbn [rbind]. apply IH; [lia|lia|lia| |].
    - intros _ Hj'. rewrite Nat.add_1_r, Nat.sub_succ, Nat.sub_0_r. rewrite Nat.add_1_r in Hj'. auto.
    - intros i Hi. destruct (Nat.eq_dec i j) as [->|Hij].
      + rewrite E1. apply rank_single. split; [lia|]. split; [intros i Hi'; f_equal; lia|]. split; [intros; apply Hb; lia|exact Hne].
      + rewrite F1; [apply Hd; lia|]. intros K. apply (P_inj arr ptr o Hs) in K; lia. }
  destruct (Nat.ltb_spec j (num - 1)) as [Hl1|Hl1]; [|cbn [rbind]; apply Single; lia].
  rewrite !get_ptr by lia. cbn [rbind]. rewrite !get_arr by lia. cbn [rbind]. rewrite !(Nat.add_1_r j) in *.
  destruct (Z.eqb_spec (V j) (V (S j))) as [E|Hne].
  2:{ rewrite get_ptr in Single by lia. cbn [rbind] in Single. apply Single. auto. }
  destruct (last_dup_ok (S num) j) as (e & Ee & He & Hall & Hlast); [lia|lia|]. rewrite Ee. cbn [rbind].
  rewrite !(Nat.add_1_r e).
  assert (R : run_at j e) by (split; [lia|]; split; [exact Hall|]; split; [intros; apply Hb; lia|exact Hlast]).
  destruct (install_ok (inject_Z (Z.of_nat (list_sum (seq j (S e - j)))) / inject_Z (Z.of_nat (S e - j)) + 1)%Q (S e - j) j ranks) as (r1 & E1 & L1 & A1 & B1); [lia|exact Hl|].
  rewrite E1. cbn [rbind]. apply IH; [lia|exact L1|lia| |].
  - intros _ Hj'. rewrite Nat.sub_succ, Nat.sub_0_r. auto.
  - intros i Hi. destruct (Nat.lt_ge_cases i j) as [Hij|Hij].
    + rewrite B1 by lia. apply Hd. exact Hij.
    + rewrite A1 by lia. rewrite (rank_value j e R). rewrite (Hall i) by lia. reflexivity.
Qed.
End Rank.

Lemma ranks_ok arr ptr o ranks : sorts o arr ptr -> length ranks = length arr ->
  exists ranks', rank_loop (S (length arr)) arr ptr (length arr) 0 ranks = Ok ranks' /\ length ranks' = length arr /\
    forall p, p < length arr -> (nth p ranks' 0 == mean_rank o arr (nth p arr 0%Z))%Q.
Proof.
  intros Hs Hl. destruct (rank_loop_ok arr ptr o Hs (S (length arr)) 0 ranks) as (r & E & L & H); try lia.
  exists r. split; [exact E|]. split; [exact L|]. intros p Hp.
  destruct (P_onto arr ptr o Hs p Hp) as (i & Hi & <-). apply H. exact Hi.
Qed.

(** ** consequences *)
Lemma list_sum_seq k : forall j, 2 * list_sum (seq j k) + k = k * (2 * j + k).
Proof. induction k as [|k IH]; intros j; [reflexivity|]. cbn [seq list_sum fold_right]. specialize (IH (S j)). unfold list_sum in IH. nia. Qed.
Lemma count_pos f l x : In x l -> f x = true -> 0 < count f l.
Proof. unfold count. induction l as [|y l IH]; intros H E; [destruct H|]. cbn. destruct H as [->|H]; [rewrite E; cbn; lia|]. destruct (f y); cbn; [lia|auto]. Qed.
(** twice the mean rank *)
Definition rank2 (o : order) (l : list Z) (x : Z) : nat :=
  2 * count (fun y => before_b o y x) l + count (fun y => (y =? x)%Z) l + 1.
Lemma mean_rank2 o l x : In x l -> (mean_rank o l x == inject_Z (Z.of_nat (rank2 o l x)) / 2)%Q.
Proof.
  intros Hi. unfold mean_rank, rank2. set (s := count _ l). set (e := count (fun y => (y =? x)%Z) l).
  assert (He : 0 < e) by (apply (count_pos _ _ x); [exact Hi|apply Z.eqb_refl]).
  rewrite sum_S, seq_length. pose proof (list_sum_seq e s) as H. set (t := list_sum (seq s e)) in *.
  assert (Hz : (2 * inject_Z (Z.of_nat (t + e)) == inject_Z (Z.of_nat e) * inject_Z (Z.of_nat (2 * s + e + 1)))%Q).
  { rewrite <- inject_Z_mult. change 2%Q with (inject_Z 2). rewrite <- inject_Z_mult. apply inject_Z_injective.
    rewrite <- Nat2Z.inj_mul. change 2%Z with (Z.of_nat 2). rewrite <- Nat2Z.inj_mul. f_equal. nia. }
  assert (Hne : ~ (inject_Z (Z.of_nat e) == 0)%Q) by (unfold Qeq, inject_Z; cbn [Qnum Qden]; lia).
  apply (Qmult_inj_l _ _ (2 * inject_Z (Z.of_nat e))%Q); [intros K; apply Qmult_integral in K; destruct K; [discriminate|contradiction]|].
  transitivity (2 * inject_Z (Z.of_nat (t + e)))%Q; [field; exact Hne|]. rewrite Hz. field.
Qed.
Lemma count_ext f g l : (forall x, In x l -> f x = g x) -> count f l = count g l.
Proof. unfold count. induction l as [|x l IH]; intros H; [reflexivity|]. cbn. rewrite (H x (or_introl eq_refl)). destruct (g x); cbn; rewrite IH; auto; intros; apply H; now right. Qed.
Lemma count_le f g h l : (forall x, h x = true -> f x = false /\ g x = true) -> (forall x, f x = true -> g x = true) ->
  count f l + count h l <= count g l.
Proof.
  intros H1 H2. unfold count. induction l as [|x l IH]; [cbn; lia|]. cbn.
  destruct (f x) eqn:F, (g x) eqn:G, (h x) eqn:H; cbn; try lia;
    try (apply H2 in F; congruence); try (destruct (H1 x H); congruence).
Qed.
Lemma rank2_lt o l x y : In x l -> In y l -> before o x y -> rank2 o l x < rank2 o l y.
Proof.
  intros Hx Hy Hb. unfold rank2.
  pose proof (count_le (fun z => before_b o z x) (fun z => before_b o z y) (fun z => (z =? x)%Z) l) as H.
  assert (count (fun z => (z =? y)%Z) l > 0) by (apply (count_pos _ _ y); [exact Hy|apply Z.eqb_refl]).
  assert (count (fun z => (z =? x)%Z) l > 0) by (apply (count_pos _ _ x); [exact Hx|apply Z.eqb_refl]).
  enough (count (fun z => before_b o z x) l + count (fun z => (z =? x)%Z) l <= count (fun z => before_b o z y) l) by lia.
  apply H; intros z Hz; destruct o; cbn in *; rewrite ?Z.eqb_eq, ?Z.ltb_lt, ?Z.ltb_ge in *; lia.
Qed.
(** the sum of the doubled ranks is n(n+1) *)
Definition pairs (o : order) (x : Z) (l : list Z) : nat :=
  2 * count (fun y => before_b o y x) l + count (fun y => (y =? x)%Z) l.
Lemma pairs_cons o x y l : pairs o x (y :: l) = pairs o x l + (if before_b o y x then 2 else if (y =? x)%Z then 1 else 0).
Proof.
  unfold pairs, count. cbn. destruct (before_b o y x) eqn:B, (Z.eqb_spec y x) as [->|]; cbn; try lia.
  destruct o; cbn in B; rewrite Z.ltb_irrefl in B; discriminate.
Qed.
Lemma pairs_sum o x l : list_sum (map (fun y => pairs o y [x]) l) + pairs o x l = 2 * length l.
Proof.
  induction l as [|y l IH]; [reflexivity|]. cbn [map length]. rewrite (pairs_cons o x y l).
  change (list_sum (pairs o y [x] :: map (fun y0 => pairs o y0 [x]) l)) with (pairs o y [x] + list_sum (map (fun y0 => pairs o y0 [x]) l)).
  rewrite (pairs_cons o y x []). change (pairs o y []) with 0.
  enough ((if before_b o x y then 2 else if (x =? y)%Z then 1 else 0) + (if before_b o y x then 2 else if (y =? x)%Z then 1 else 0) = 2) by lia.
  destruct o; cbn; destruct (Z.ltb_spec x y), (Z.ltb_spec y x), (Z.eqb_spec x y), (Z.eqb_spec y x); lia.
Qed.
Lemma pairs_total o l : list_sum (map (fun x => pairs o x l) l) = length l * length l.
Proof.
  induction l as [|a l IH]; [reflexivity|]. cbn [map length].
  change (list_sum (pairs o a (a :: l) :: map (fun x => pairs o x (a :: l)) l)) with (pairs o a (a :: l) + list_sum (map (fun x => pairs o x (a :: l)) l)).
  assert (E : list_sum (map (fun x => pairs o x (a :: l)) l) = list_sum (map (fun x => pairs o x l) l) + list_sum (map (fun x => pairs o x [a]) l)).
  { clear IH. assert (G : forall m, list_sum (map (fun x => pairs o x (a :: l)) m) = list_sum (map (fun x => pairs o x l) m) + list_sum (map (fun x => pairs o x [a]) m)).
    { induction m as [|y m IHm]; [reflexivity|]. cbn [map]. unfold list_sum in *. cbn [fold_right]. rewrite IHm.
      rewrite (pairs_cons o y a l), (pairs_cons o y a []). change (pairs o y []) with 0. lia. }
    apply G. }
  rewrite E, IH. pose proof (pairs_sum o a l) as H. rewrite (pairs_cons o a a l).
  assert (K : (if before_b o a a then 2 else if (a =? a)%Z then 1 else 0) = 1) by (destruct o; cbn; rewrite Z.ltb_irrefl, Z.eqb_refl; reflexivity).
  rewrite K. nia.
Qed.
Lemma rank2_sum o l : list_sum (map (rank2 o l) l) = length l * (length l + 1).
Proof.
  assert (G : forall m, list_sum (map (rank2 o l) m) = list_sum (map (fun x => pairs o x l) m) + length m).
  { induction m as [|y m IH]; [reflexivity|]. cbn [map length]. unfold list_sum in *. cbn [fold_right]. rewrite IH. unfold rank2, pairs. lia. }
  rewrite G, pairs_total. nia.
Qed.
