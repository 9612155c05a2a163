(** Counting the ties. *)
From Coq Require Import List ZArith QArith NArith Lia Lqa Arith Bool Permutation.
From Verif Require Import Base Order_Model Order_Proofs1 Summ_Model Rank_Model Rank_Spec Rank_Proofs1 Anovar_Model Anovar_Spec Anovar_Proofs1.
Import ListNotations.
Local Open Scope nat_scope.

Definition distinct (keys : list Q) : Prop := ForallOrdPairs (fun a b => ~ (a == b)%Q) keys.
Definition zeros (n : nat) : list (Q * nat) := repeat (0%Q, 0) n.
Definition counted (cnt : Q -> nat) (keys : list Q) : list (Q * nat) := map (fun k => (k, cnt k)) keys.

Lemma place_ok x cnt : ~ (x == 0)%Q -> forall keys free, Forall (fun k => ~ (k == 0)%Q) keys -> (Exists (Qeq x) keys \/ 0 < free) ->
  exists arr, place x (counted cnt keys ++ zeros free) = Ok arr /\
  ((exists k1 k k2, keys = k1 ++ k :: k2 /\ (x == k)%Q /\ arr = counted cnt k1 ++ (x, cnt k + 1) :: counted cnt k2 ++ zeros free) \/
   (Forall (fun k => ~ (x == k)%Q) keys /\ exists f, free = S f /\ arr = counted cnt keys ++ (x, 1) :: zeros f)).
Proof.
  intros X. induction keys as [|k keys IH]; intros free F C.
  - destruct C as [C|C]; [inversion C|]. destruct free as [|f]; [lia|]. cbn [counted map app zeros repeat place].
    rewrite (proj2 (qeqb 0 0)) by reflexivity. cbn [orb]. eexists. split; [reflexivity|]. right. split; [constructor|]. exists f. split; reflexivity.
  - inversion F as [|? ? F1 F2]; subst. cbn [counted map app place]. change (map (fun k0 => (k0, cnt k0)) keys) with (counted cnt keys). rewrite (proj2 (qeqb_false k 0) F1). cbn [orb].
    destruct (Qeq_bool x k) eqn:E.
    + eexists. split; [reflexivity|]. left. exists [], k, keys. apply qeqb in E. auto.
    + apply qeqb_false in E. destruct (IH free F2) as (arr & -> & A).
      { destruct C as [C|C]; [|right; exact C]. inversion C; subst; [contradiction|left; assumption]. }
      cbn [rbind]. eexists. split; [reflexivity|]. destruct A as [(k1 & k' & k2 & -> & K & ->)|(A & f & -> & ->)].
      * left. exists (k :: k1), k', k2. auto.
      * right. split; [constructor; assumption|]. exists f. auto.
Qed.

Lemma eqs_app a b x : eqs (a ++ b) x = eqs a x + eqs b x.
Proof. unfold eqs. rewrite filter_app, app_length. reflexivity. Qed.
Lemma eqs_ext v x y : (x == y)%Q -> eqs v x = eqs v y.
Proof.
  intro E. unfold eqs. f_equal. apply filter_ext. intro z. destruct (Qeq_bool y z) eqn:F; [apply qeqb in F; apply qeqb; lra|].
  apply qeqb_false in F. apply qeqb_false. lra.
Qed.
Lemma distinct_mid k1 k k2 x : distinct (k1 ++ k :: k2) -> (x == k)%Q -> distinct (k1 ++ x :: k2) /\
  Forall (fun a => ~ (a == x)%Q) k1 /\ Forall (fun a => ~ (a == x)%Q) k2.
Proof.
  intros D E. induction k1 as [|a k1 IH]; cbn [app] in *.
  - inversion D as [|? ? F D']; subst. split; [constructor; [|exact D']|].
    + revert F. apply Forall_impl. intros b B C. apply B. lra.
    + split; [constructor|]. revert F. apply Forall_impl. intros b B C. apply B. lra.
  - inversion D as [|? ? F D']; subst. destruct (IH D') as (A & B & C). apply Forall_app in F. destruct F as (F1 & F2). inversion F2 as [|? ? F3 F4]; subst.
    split; [constructor; [apply Forall_app; split; [exact F1|constructor; [lra|exact F4]]|exact A]|].
    split; [constructor; [lra|exact B]|exact C].
Qed.
Lemma distinct_snoc keys x : distinct keys -> Forall (fun k => ~ (x == k)%Q) keys -> distinct (keys ++ [x]).
Proof.
  induction keys as [|k keys IH]; intros D F; cbn [app]; [repeat constructor|]. inversion D as [|? ? D1 D2]; inversion F as [|? ? F1 F2]; subst.
  constructor; [apply Forall_app; split; [exact D1|constructor; [lra|constructor]]|apply IH; assumption].
Qed.

Definition inv (n : nat) (ys : list Q) (arr : list (Q * nat)) : Prop :=
  exists keys free, arr = counted (eqs ys) keys ++ zeros free /\ length keys + free = n /\ length keys <= length ys /\
    distinct keys /\ Forall (fun k => ~ (k == 0)%Q) keys /\ (forall y, In y ys -> Exists (Qeq y) keys) /\ (forall k, In k keys -> Exists (Qeq k) ys).
Lemma counted_ext f g keys : (forall k, In k keys -> f k = g k) -> counted f keys = counted g keys.
Proof. intro H. apply map_ext_in. intros k K. rewrite H by exact K. reflexivity. Qed.
Lemma eqs_one x k : eqs [x] k = if Qeq_bool k x then 1 else 0.
Proof. unfold eqs. cbn [filter]. destruct (Qeq_bool k x); reflexivity. Qed.
Lemma place_inv n ys arr x : inv n ys arr -> ~ (x == 0)%Q -> length ys < n -> exists arr', place x arr = Ok arr' /\ inv n (ys ++ [x]) arr'.
Proof.
  intros (keys & free & -> & L & LK & D & Z & C & B) X N.
  destruct (place_ok x (eqs ys) X keys free Z) as (arr & E & A); [right; lia|]. exists arr. split; [exact E|].
  destruct A as [(k1 & k & k2 & -> & K & ->)|(NX & f & -> & ->)].
  - destruct (distinct_mid _ _ _ _ D K) as (D' & F1 & F2). rewrite Forall_forall in F1, F2. exists (k1 ++ x :: k2), free.
    split.
    { unfold counted at 3. rewrite map_app, <- app_assoc. cbn [map app]. f_equal; [|f_equal; [f_equal|f_equal]].
      - apply counted_ext. intros a I. rewrite eqs_app, eqs_one, (proj2 (qeqb_false a x)) by auto. lia.
      - rewrite eqs_app, eqs_one, (proj2 (qeqb x x)) by reflexivity. rewrite (eqs_ext _ _ _ K). reflexivity.
      - apply counted_ext. intros a I. rewrite eqs_app, eqs_one, (proj2 (qeqb_false a x)) by auto. lia. }
    split; [rewrite app_length in *; cbn [length] in *; lia|]. split; [rewrite !app_length in *; cbn [length] in *; lia|].
    split; [exact D'|]. split.
    { apply Forall_app in Z. destruct Z as (Z1 & Z2). inversion Z2; subst. apply Forall_app. auto. }
    split.
    { intros y Y. apply in_app_iff in Y. destruct Y as [Y|[<-|[]]].
      - specialize (C y Y). apply Exists_app in C. apply Exists_app. destruct C as [C|C]; [left; exact C|]. right.
        inversion C; subst; [left; lra|right; assumption].
      - apply Exists_app. right. left. reflexivity. }
    intros a I. apply Exists_app. apply in_app_iff in I. destruct I as [I|[<-|I]].
    + left. apply B. apply in_app_iff. auto.
    + right. left. reflexivity.
    + left. apply B. apply in_app_iff. right. right. exact I.
  - pose proof NX as NX'. rewrite Forall_forall in NX'. exists (keys ++ [x]), f.
    split.
    { unfold counted at 2. rewrite map_app, <- app_assoc. cbn [map app]. f_equal; [|f_equal; f_equal].
      - apply counted_ext. intros a I. rewrite eqs_app, eqs_one, (proj2 (qeqb_false a x)); [lia|]. intro Q. apply (NX' a I). lra.
      - rewrite eqs_app, eqs_one, (proj2 (qeqb x x)) by reflexivity. replace (eqs ys x) with 0; [reflexivity|]. symmetry.
        unfold eqs. assert (K : filter (Qeq_bool x) ys = []); [|rewrite K; reflexivity].
        destruct (filter (Qeq_bool x) ys) as [|y r] eqn:F; [reflexivity|]. exfalso.
        assert (J : In y (filter (Qeq_bool x) ys)) by (rewrite F; left; reflexivity). apply filter_In in J. destruct J as (J & Q).
        apply qeqb in Q. specialize (C y J). apply Exists_exists in C. destruct C as (k & IK & K). apply (NX' k IK). lra. }
    split; [rewrite app_length; cbn [length] in *; lia|]. split; [rewrite !app_length; cbn [length]; lia|].
    split; [apply distinct_snoc; assumption|]. split; [apply Forall_app; auto|]. split.
    { intros y Y. apply in_app_iff in Y. apply Exists_app. destruct Y as [Y|[<-|[]]]; [left; auto|right; left; reflexivity]. }
    intros a I. apply Exists_app. apply in_app_iff in I. destruct I as [I|[<-|[]]]; [left; auto|right; left; reflexivity].
Qed.
Lemma place_all_inv n : forall xs ys arr, inv n ys arr -> Forall (fun x => ~ (x == 0)%Q) xs -> length ys + length xs <= n ->
  exists arr', place_all xs arr = Ok arr' /\ inv n (ys ++ xs) arr'.
Proof.
  induction xs as [|x xs IH]; intros ys arr I F L; cbn [place_all].
  - exists arr. rewrite app_nil_r. auto.
  - inversion F as [|? ? F1 F2]; subst. cbn [length] in L. destruct (place_inv n ys arr x I F1) as (a & -> & I'); [lia|]. cbn [rbind].
    destruct (IH (ys ++ [x]) a I' F2) as (a' & -> & I''); [rewrite app_length; cbn [length]; lia|]. exists a'. split; [reflexivity|].
    rewrite <- app_assoc in I''. exact I''.
Qed.

(** ** the sum over the groups *)
Definition group_sum (arr : list (Q * nat)) : nat := list_sum (map (fun e => cubes (snd e)) arr).
Lemma group_sum_app a b : group_sum (a ++ b) = group_sum a + group_sum b.
Proof. unfold group_sum. rewrite map_app, list_sum_app. reflexivity. Qed.
Lemma group_sum_zeros n : group_sum (zeros n) = 0.
Proof. induction n as [|n IH]; [reflexivity|]. unfold group_sum, zeros in *. cbn [repeat map snd]. cbn [list_sum fold_right]. exact IH. Qed.
Lemma cubes_z c : Z.of_nat (cubes c) = (Z.of_nat c * (Z.of_nat c * Z.of_nat c - 1))%Z.
Proof.
  unfold cubes. destruct (Nat.ltb_spec 0 c); [|replace c with 0 by lia; reflexivity].
  rewrite Nat2Z.inj_sub by nia. rewrite !Nat2Z.inj_mul. ring.
Qed.
Lemma by_keys (g : nat -> Z) w keys : distinct keys -> forall ys, (forall y, In y ys -> Exists (Qeq y) keys) ->
  (forall k, In k keys -> eqs ys k = eqs w k) ->
  zsum (map (fun y => g (eqs w y)) ys) = zsum (map (fun k => Z.of_nat (eqs w k) * g (eqs w k))%Z keys).
Proof.
  induction keys as [|k keys IH]; intros D ys C W.
  - destruct ys as [|y ys]; [reflexivity|]. specialize (C y (or_introl eq_refl)). inversion C.
  - inversion D as [|? ? D1 D2]; subst. rewrite Forall_forall in D1. cbn [map]. rewrite zsum_cons. rewrite (zsum_split _ (Qeq_bool k)). f_equal.
    + rewrite (zsum_const _ (g (eqs w k))).
      * fold (eqs ys k). rewrite W by (left; reflexivity). reflexivity.
      * intros x X. apply filter_In in X. destruct X as (_ & E). apply qeqb in E. rewrite (eqs_ext w x k); [reflexivity|lra].
    + apply IH; [exact D2| |].
      * intros y Y. apply filter_In in Y. destruct Y as (Y & E). apply negb_true_iff, qeqb_false in E. specialize (C y Y).
        inversion C; subst; [exfalso; apply E; lra|assumption].
      * intros a A. rewrite <- W by (right; exact A). unfold eqs. rewrite filter_twice. f_equal. apply filter_ext. intro y.
        destruct (Qeq_bool k y) eqn:E; cbn [negb andb]; [|reflexivity]. symmetry. apply qeqb_false. apply qeqb in E. intro Q. apply (D1 a A). lra.
Qed.
Lemma inv_sum n ys arr : inv n ys arr -> Z.of_nat (group_sum arr) = ties ys.
Proof.
  intros (keys & free & -> & _ & _ & D & _ & C & _). rewrite group_sum_app, group_sum_zeros, Nat.add_0_r. unfold ties.
  rewrite (by_keys (fun c => Z.of_nat c * Z.of_nat c - 1)%Z ys keys D ys C) by reflexivity.
  unfold group_sum, counted. rewrite map_map. cbn [snd]. clear. induction keys as [|k keys IH]; [reflexivity|].
  cbn [map]. rewrite zsum_cons. cbn [list_sum fold_right]. rewrite Nat2Z.inj_add, cubes_z. unfold list_sum in IH. rewrite IH. reflexivity.
Qed.
Lemma inv_len n ys arr : inv n ys arr -> length arr = n.
Proof. intros (keys & free & -> & L & _). unfold counted, zeros. rewrite app_length, map_length, repeat_length. exact L. Qed.

Lemma read_counts (arr : list (Q * nat)) lim : lim <= length arr ->
  mapm (fun j => rbind (get arr j) (fun e => Ok (cubes (snd e)))) (seq 0 lim) = Ok (map (fun e : Q * nat => cubes (snd e)) (firstn lim arr)).
Proof.
  intro L. rewrite (mapm_ok _ (fun j => cubes (snd (nth j arr (0%Q, 0))))).
  - f_equal. transitivity (map (fun e : Q * nat => cubes (snd e)) (map (fun j => nth j (firstn lim arr) (0%Q, 0)) (seq 0 (length (firstn lim arr))))).
    + rewrite map_map, firstn_length_le by exact L. apply map_ext_in. intros j J. apply in_seq in J. do 2 f_equal.
      rewrite <- (firstn_skipn lim arr) at 1. rewrite app_nth1 by (rewrite firstn_length_le; lia). reflexivity.
    + rewrite map_nth_seq. reflexivity.
  - intros j J. apply in_seq in J. rewrite (get_ok _ j (0%Q, 0)) by lia. reflexivity.
Qed.

(** ** which ties are seen *)
Lemma pigeon keys : distinct keys -> forall vals, (forall k, In k keys -> Exists (Qeq k) vals) -> length keys <= length vals.
Proof.
  induction keys as [|k keys IH]; intros D vals C; [cbn; lia|]. inversion D as [|? ? D1 D2]; subst. rewrite Forall_forall in D1.
  destruct (proj1 (Exists_exists _ _) (C k (or_introl eq_refl))) as (x & IX & X). apply in_split in IX. destruct IX as (a & b & ->).
  rewrite app_length. cbn [length]. specialize (IH D2 (a ++ b)). rewrite app_length in IH. enough (length keys <= length a + length b) by lia. apply IH.
  intros c I. specialize (C c (or_intror I)). apply Exists_app in C. apply Exists_app. destruct C as [C|C]; [left; exact C|].
  inversion C; subst; [|right; assumption]. exfalso. apply (D1 c I). lra.
Qed.
Lemma distinct_eqs v x : distinct v -> eqs v x <= 1.
Proof.
  induction v as [|y v IH]; intro D; [cbn; lia|]. inversion D as [|? ? D1 D2]; subst. specialize (IH D2). unfold eqs in *. cbn [filter].
  destruct (Qeq_bool x y) eqn:E; [|exact IH]. cbn [length]. apply qeqb in E.
  assert (K : filter (Qeq_bool x) v = []); [|rewrite K; cbn; lia]. destruct (filter (Qeq_bool x) v) as [|z r] eqn:F; [reflexivity|].
  exfalso. assert (J : In z (filter (Qeq_bool x) v)) by (rewrite F; left; reflexivity). apply filter_In in J. destruct J as (J & Q). apply qeqb in Q.
  rewrite Forall_forall in D1. apply (D1 z J). lra.
Qed.
Lemma sum_small arr : Forall (fun e : Q * nat => snd e <= 1) arr -> group_sum arr = 0.
Proof.
  induction 1 as [|[a c] arr H _ IH]; [reflexivity|]. unfold group_sum in *. cbn [map snd list_sum fold_right] in *. unfold list_sum in IH. rewrite IH.
  destruct c as [|[|c]]; [reflexivity|reflexivity|lia].
Qed.
Lemma Forall_counted (R : Q * nat -> Prop) cnt keys : (forall k, In k keys -> R (k, cnt k)) -> Forall R (counted cnt keys).
Proof. intro H. apply Forall_forall. intros e E. apply in_map_iff in E. destruct E as (k & <- & K). auto. Qed.

Lemma row_ties_ok xs n lim : length xs = n -> lim <= n -> Forall (fun x => ~ (x == 0)%Q) xs -> few_values lim xs \/ distinct xs ->
  exists T, row_ties xs n lim = Ok T /\ Z.of_nat T = ties xs.
Proof.
  intros L LI F C. unfold row_ties. destruct (place_all_inv n xs [] (zeros n)) as (arr & E & I).
  { exists [], n. cbn [counted map app length]. repeat split; try lia; try constructor; intros ? []. }
  { exact F. } { cbn [length]. lia. }
  unfold zeros in E. rewrite E. cbn [rbind app] in *. pose proof (inv_len _ _ _ I) as LA. rewrite read_counts by lia. cbn [rbind].
  eexists. split; [reflexivity|]. fold (group_sum (firstn lim arr)). rewrite <- (inv_sum _ _ _ I).
  f_equal. pose proof (group_sum_app (firstn lim arr) (skipn lim arr)) as G. rewrite firstn_skipn in G. rewrite G.
  enough (group_sum (skipn lim arr) = 0) by lia. destruct I as (keys & free & -> & LK & LY & D & Z & CO & B).
  destruct C as [(vals & LV & C)|C].
  - assert (LE : length keys <= length vals).
    { apply pigeon; [exact D|]. intros k K. specialize (B k K). apply Exists_exists in B. destruct B as (y & IY & Y). specialize (C y IY).
      apply Exists_exists in C. destruct C as (w & IW & W). apply Exists_exists. exists w. split; [exact IW|lra]. }
    rewrite skipn_app, skipn_all2 by (unfold counted; rewrite map_length; lia). cbn [app]. apply sum_small. apply Forall_forall. intros e IE.
    assert (IZ : In e (zeros free)). { rewrite <- (firstn_skipn (lim - length (counted (eqs xs) keys)) (zeros free)). apply in_app_iff. right. exact IE. }
    apply repeat_spec in IZ. subst e. cbn. lia.
  - apply sum_small. apply Forall_forall. intros e IE.
    assert (IZ : In e (counted (eqs xs) keys ++ zeros free)). { rewrite <- (firstn_skipn lim (_ ++ _)). apply in_app_iff. right. exact IE. }
    apply in_app_iff in IZ. destruct IZ as [IZ|IZ].
    + apply in_map_iff in IZ. destruct IZ as (k & <- & K). cbn [snd]. apply distinct_eqs, C.
    + apply repeat_spec in IZ. subst e. cbn. lia.
Qed.
Lemma row_ties_undef xs n lim : length xs = n -> n < lim -> Forall (fun x => ~ (x == 0)%Q) xs -> row_ties xs n lim = Undef.
Proof.
  intros L LI F. unfold row_ties. destruct (place_all_inv n xs [] (zeros n)) as (arr & E & I).
  { exists [], n. cbn [counted map app length]. repeat split; try lia; try constructor; intros ? []. }
  { exact F. } { cbn [length]. lia. }
  unfold zeros in E. rewrite E. cbn [rbind]. pose proof (inv_len _ _ _ I) as LA. rewrite mapm_undef; [reflexivity| |].
  - intros j _. unfold get. destruct (nth_error arr j); cbn [rbind]; [right; eexists; reflexivity|left; reflexivity].
  - exists n. split; [apply in_seq; lia|]. unfold get. rewrite (proj2 (nth_error_None arr n)) by lia. reflexivity.
Qed.
