From Coq Require Import List Arith ZArith QArith Bool Permutation Sorted Lia Lqa.
From Verif Require Import Base Order_Model Det_Model Det_Spec Det_Proofs.
Import ListNotations.
Local Open Scope res_scope.
Local Open Scope nat_scope.

Definition cle (x y : step) : Prop := (s_conf x <= s_conf y)%Q.
Lemma insert_perm : forall x l, Permutation (insert_word x l) (x :: l).
Proof.
  induction l as [|y l IH]; cbn [insert_word]; [reflexivity|]. destruct (Qle_bool _ _); [reflexivity|].
  rewrite IH. apply perm_swap.
Qed.
Lemma sort_perm : forall l, Permutation (sort_words l) l.
Proof. induction l as [|x l IH]; cbn [sort_words]; [reflexivity|]. rewrite insert_perm, IH. reflexivity. Qed.
Lemma insert_sorted : forall x l, StronglySorted cle l -> StronglySorted cle (insert_word x l).
Proof.
  induction l as [|y l IH]; intros H; cbn [insert_word]; [constructor; constructor|].
  inversion H as [|? ? H1 H2]; subst. destruct (Qle_bool (s_conf x) (s_conf y)) eqn:E.
  - apply Qle_bool_iff in E. constructor; [exact H|]. constructor; [exact E|].
    eapply Forall_impl; [|exact H2]. intros z Hz. unfold cle in *. eapply Qle_trans; eassumption.
  - constructor; [apply IH, H1|]. apply Forall_forall. intros z Hz.
    apply (Permutation_in _ (insert_perm x l)) in Hz. destruct Hz as [<-|Hz].
    + unfold cle. destruct (Qlt_le_dec (s_conf x) (s_conf y)) as [K|K]; [|exact K].
      exfalso. apply Qlt_le_weak, Qle_bool_iff in K. congruence.
    + rewrite Forall_forall in H2. apply H2, Hz.
Qed.
Lemma sort_sorted : forall l, StronglySorted cle (sort_words l).
Proof. induction l as [|x l IH]; cbn [sort_words]; [constructor|]. apply insert_sorted, IH. Qed.

Lemma skip_add : forall A (s : list A) m l, skipn (m + l) s = skipn m (skipn l s).
Proof.
  induction s as [|x s IH]; intros m l; [rewrite !skipn_nil; reflexivity|].
  destruct l as [|l]; [rewrite Nat.add_0_r; reflexivity|]. rewrite Nat.add_succ_r. cbn [skipn]. apply IH.
Qed.
Definition next (n q l : nat) : nat := if n <? l + q + q then n else l + q.
Lemma scaled_loop_ok : forall q, 1 <= q -> forall fuel s l,
  (l + q <= length s \/ l = length s) -> length s - l <= fuel ->
  exists bs, scaled_loop fuel s q l (if l =? length s then length s else next (length s) q l) = Ok bs /\
    concat bs = skipn l s /\
    length bs = (length s - l) / q /\
    (forall i, i + 1 < length bs -> length (nth i bs []) = q) /\
    (forall i, i < length bs -> q <= length (nth i bs []) < 2 * q).
Proof.
  intros q Hq. induction fuel as [|fuel IH]; intros s l H Hf.
  - assert (l = length s) as -> by lia. rewrite Nat.eqb_refl. exists []. cbn [scaled_loop].
    rewrite Nat.ltb_irrefl. cbn [andb]. split; [reflexivity|]. split; [rewrite skipn_all; reflexivity|].
    split; [rewrite Nat.sub_diag, Nat.div_0_l by lia; reflexivity|]. split; intros i Hi; cbn [length] in Hi; lia.
  - destruct (Nat.eqb_spec l (length s)) as [->|N].
    { exists []. cbn [scaled_loop]. rewrite Nat.ltb_irrefl. cbn [andb]. split; [reflexivity|].
      split; [rewrite skipn_all; reflexivity|].
      split; [rewrite Nat.sub_diag, Nat.div_0_l by lia; reflexivity|]. split; intros i Hi; cbn [length] in Hi; lia. }
    assert (l + q <= length s) as Hl by lia. clear H.
    assert (next (length s) q l <= length s /\ l + q <= next (length s) q l < l + 2 * q /\
            (next (length s) q l = length s \/ next (length s) q l + q <= length s /\ next (length s) q l = l + q)) as (N1 & N2 & N3).
    { unfold next. destruct (Nat.ltb_spec (length s) (l + q + q)); lia. }
    set (b := next (length s) q l) in *. cbn [scaled_loop].
    destruct (Nat.ltb_spec l b) as [_|]; [|lia]. destruct (Nat.ltb_spec l (length s)) as [_|]; [|lia]. cbn [andb].
    destruct (Nat.ltb_spec (length s) b) as [|_]; [lia|].
    destruct (IH s b) as (bs & E & C & L & A & B); [lia|lia|].
    replace (if length s <? b + q + q then length s else b + q) with
      (if b =? length s then length s else next (length s) q b).
    2: { unfold next. destruct (Nat.eqb_spec b (length s)) as [->|]; [|reflexivity].
         destruct (Nat.ltb_spec (length s) (length s + q + q)); lia. }
    rewrite E. cbn [rbind]. exists (firstn (b - l) (skipn l s) :: bs).
    assert (length (firstn (b - l) (skipn l s)) = b - l) as Lb by (rewrite firstn_length, skipn_length; lia).
    split; [reflexivity|]. split; [|split; [|split]].
    + cbn [concat]. rewrite C. replace b with (b - l + l) at 2 by lia.
      rewrite <- (firstn_skipn (b - l) (skipn l s)) at 2. f_equal.
      apply skip_add.
    + cbn [length]. rewrite L. destruct N3 as [N3|[N3 N4]].
      * rewrite N3, Nat.sub_diag, Nat.div_0_l by lia. symmetry.
        assert (1 <= (length s - l) / q) by (apply Nat.div_le_lower_bound; lia).
        assert ((length s - l) / q < 2) by (apply Nat.div_lt_upper_bound; lia). lia.
      * rewrite N4. replace (length s - l) with (length s - (l + q) + 1 * q) by lia.
        rewrite Nat.div_add by lia. lia.
    + intros [|i] Hi; cbn [length nth] in *.
      * rewrite Lb. assert (length bs <> 0) as K by lia. destruct N3 as [N3|[N3 N4]]; [|lia].
        rewrite N3, Nat.sub_diag, Nat.div_0_l in L by lia. lia.
      * apply A. lia.
    + intros [|i] Hi; cbn [length nth] in *; [lia|]. apply B. lia.
Qed.

Lemma scaled_ok : forall bins sc, 1 <= bins -> bins <= length (said sc) -> words sc = said sc ->
  let n := length (said sc) in let q := n / bins in
  exists bs, scaled_bins bins sc = Ok bs /\ Permutation (concat bs) (said sc) /\
    StronglySorted cle (concat bs) /\
    length bs = n / q /\ (forall i, i + 1 < length bs -> length (nth i bs []) = q) /\
    (forall i, i < length bs -> q <= length (nth i bs []) < 2 * q).
Proof.
  intros bins sc Hb Hn W n q. unfold scaled_bins. rewrite W.
  destruct (Nat.eqb_spec bins 0); [lia|].
  set (s := sort_words (said sc)).
  assert (length s = n) as Ls by (apply Permutation_length, sort_perm).
  rewrite Ls. fold q.
  assert (1 <= q) as Hq by (apply Nat.div_le_lower_bound; lia).
  assert (q <= n) as Hq2 by (apply Nat.div_le_upper_bound; nia).
  destruct (scaled_loop_ok q Hq (S n) s 0) as (bs & E & C & L & A & B); [lia|lia|].
  rewrite Ls in *. exists bs. split.
  { rewrite <- E. f_equal. destruct (Nat.eqb_spec 0 n); [lia|]. unfold next. cbn [Nat.add].
    destruct (Nat.ltb_spec n (q + q)) as [K|K]; [|reflexivity].
    assert (bins = 1) as -> .
    { destruct (Nat.le_gt_cases 2 bins) as [K2|]; [|lia]. exfalso.
      pose proof (Nat.mul_div_le n bins ltac:(lia)) as M. fold q in M. nia. }
    unfold q. apply Nat.div_1_r. }
  rewrite C. cbn [skipn]. split; [apply sort_perm|]. split; [apply sort_sorted|].
  rewrite Nat.sub_0_r in L. split; [exact L|]. split; assumption.
Qed.

Lemma sum_bin_counts : forall l c e mn mx, 
  let '(c', e', _, _) := sum_bin l c e mn mx in
  c' = c + length (filter (fun x => is_corr (s_eval x)) l) /\ c' + e' = c + e + length l.
Proof.
  induction l as [|x l IH]; intros c e mn mx; cbn [sum_bin filter length]; [lia|]. cbv zeta.
  destruct (is_corr (s_eval x)); cbn [length].
  - specialize (IH (c + 1) e (if Qle_bool mn (s_conf x) then mn else s_conf x) (if Qle_bool (s_conf x) mx then mx else s_conf x)).
    destruct (sum_bin l _ _ _ _) as [[[c' e'] ?] ?]. lia.
  - specialize (IH c (e + 1) (if Qle_bool mn (s_conf x) then mn else s_conf x) (if Qle_bool (s_conf x) mx then mx else s_conf x)).
    destruct (sum_bin l _ _ _ _) as [[[c' e'] ?] ?]. lia.
Qed.
Lemma Qeq_refl_last : forall l (x y z : Q), (last (x :: l) y == last (x :: l) z)%Q.
Proof.
  induction l as [|w l IH]; intros x y z; [reflexivity|].
  change (last (w :: l) y == last (w :: l) z)%Q. apply IH.
Qed.
Lemma sum_bin_ends : forall l c e mn mx, StronglySorted cle l ->
  (forall x, In x l -> (mn <= s_conf x)%Q) -> (forall x, In x l -> (mx <= s_conf x)%Q) ->
  let '(_, _, mn', mx') := sum_bin l c e mn mx in
  (mn' == mn)%Q /\ (mx' == last (map s_conf l) mx)%Q.
Proof.
  induction l as [|x l IH]; intros c e mn mx S H1 H2; cbn [sum_bin map last]; [split; reflexivity|]. cbv zeta.
  inversion S as [|? ? S1 S2]; subst.
  assert (Qle_bool mn (s_conf x) = true) as -> by (apply Qle_bool_iff, H1; left; reflexivity).
  assert (exists mx1, (if Qle_bool (s_conf x) mx then mx else s_conf x) = mx1 /\ (mx1 == s_conf x)%Q) as (mx1 & -> & Em).
  { destruct (Qle_bool (s_conf x) mx) eqn:E; eexists; (split; [reflexivity|]); [|reflexivity].
    apply Qle_bool_iff in E. apply Qle_antisym; [apply H2; left; reflexivity|exact E]. }
  assert (forall c e, let '(_, _, mn', mx') := sum_bin l c e mn mx1 in
     (mn' == mn)%Q /\ (mx' == last (map s_conf l) mx1)%Q) as K.
  { intros c' e'. apply IH; [exact S1|intros y Hy; apply H1; right; exact Hy|].
    intros y Hy. rewrite Em. rewrite Forall_forall in S2. apply S2, Hy. }
  destruct (is_corr (s_eval x)).
  - specialize (K (c + 1) e). destruct (sum_bin l _ _ _ _) as [[[c' e'] mn'] mx']. destruct K as [K1 K2].
    split; [exact K1|]. rewrite K2. destruct l as [|y l]; [exact Em|].
    cbn [map]. apply Qeq_refl_last.
  - specialize (K c (e + 1)). destruct (sum_bin l _ _ _ _) as [[[c' e'] mn'] mx']. destruct K as [K1 K2].
    split; [exact K1|]. rewrite K2. destruct l as [|y l]; [exact Em|].
    cbn [map]. apply Qeq_refl_last.
Qed.

Lemma line_ok : forall x l, StronglySorted cle (x :: l) ->
  Forall (fun y => -(99999) <= s_conf y <= 99999)%Q (x :: l) ->
  let '(mid, p, wid) := scaled_line (x :: l) in
  (mid == (s_conf x + s_conf (last (x :: l) x)) / 2)%Q /\
  (p == inject_Z (Z.of_nat (length (filter (fun y => is_corr (s_eval y)) (x :: l)))) /
        inject_Z (Z.of_nat (length (x :: l))) * 100)%Q /\
  (wid == s_conf (last (x :: l) x) - s_conf x)%Q.
Proof.
  intros x l S F. unfold scaled_line.
  pose proof (sum_bin_counts (x :: l) 0 0 99999 (- (999999 # 10))) as C.
  assert (let '(_, _, mn', mx') := sum_bin (x :: l) 0 0 99999 (- (999999 # 10)) in
    (mn' == s_conf x)%Q /\ (mx' == s_conf (last (x :: l) x))%Q) as E.
  { cbn [sum_bin]. cbv zeta. inversion S as [|? ? S1 S2]; subst. inversion F as [|? ? F1 F2]; subst.
    set (mn := if Qle_bool 99999 (s_conf x) then 99999%Q else s_conf x).
    set (mx := if Qle_bool (s_conf x) (- (999999 # 10)) then (- (999999 # 10))%Q else s_conf x).
    assert (mn == s_conf x)%Q as Hmn.
    { unfold mn. destruct (Qle_bool 99999 (s_conf x)) eqn:E; [|reflexivity].
      apply Qle_bool_iff in E. apply Qle_antisym; [exact E|apply F1]. }
    assert (mx = s_conf x) as Hmx.
    { unfold mx. destruct (Qle_bool (s_conf x) (- (999999 # 10))) eqn:E; [|reflexivity].
      apply Qle_bool_iff in E. exfalso. destruct F1 as [F1 _]. lra. }
    assert (forall c e, let '(_, _, mn', mx') := sum_bin l c e mn mx in
      (mn' == mn)%Q /\ (mx' == last (map s_conf l) mx)%Q) as K.
    { intros c e. apply sum_bin_ends; [exact S1| |]; intros y Hy; rewrite Forall_forall in S2;
        [rewrite Hmn|rewrite Hmx]; apply S2, Hy. }
    assert (last (map s_conf l) mx == s_conf (last (x :: l) x))%Q as Hl.
    { rewrite Hmx. clear. destruct l as [|y l]; [reflexivity|].
      change (last (x :: y :: l) x) with (last (y :: l) x).
      assert (forall l x, last (map s_conf l) (s_conf x) = s_conf (last l x)) as G.
      { clear. induction l as [|z l IH]; intros x; [reflexivity|]. destruct l as [|w l]; [reflexivity|].
        change (last (map s_conf (w :: l)) (s_conf x) = s_conf (last (w :: l) x)). apply IH. }
      rewrite G. reflexivity. }
    destruct (is_corr (s_eval x)).
    - specialize (K (0 + 1) 0). destruct (sum_bin l (0 + 1) 0 mn mx) as [[[c' e'] mn'] mx']. destruct K as [K1 K2].
      rewrite K1, K2. split; assumption.
    - specialize (K 0 (0 + 1)). destruct (sum_bin l 0 (0 + 1) mn mx) as [[[c' e'] mn'] mx']. destruct K as [K1 K2].
      rewrite K1, K2. split; assumption. }
  destruct (sum_bin (x :: l) 0 0 99999 (- (999999 # 10))) as [[[c e] mn] mx].
  destruct C as [C1 C2]. destruct E as [E1 E2]. cbn [Nat.add] in C1, C2. split; [|split].
  - rewrite E1, E2. reflexivity.
  - rewrite C1 in *. replace (e + length (filter (fun y => is_corr (s_eval y)) (x :: l))) with (length (x :: l)) by lia.
    reflexivity.
  - rewrite E1, E2. reflexivity.
Qed.
