From Coq Require Import List Arith ZArith QArith Qround Qabs Bool Permutation Sorted Lia Lqa.
From Verif Require Import Base Order_Model Det_Model Det_Spec Det_Proofs.
Import ListNotations.
Local Open Scope res_scope.
Local Open Scope nat_scope.

Lemma words_said : forall sc, words sc = said sc.
Proof.
  intros sc. unfold words, said. apply filter_ext. intros x. unfold counted.
  destruct (s_eval x); reflexivity.
Qed.
Lemma qn_pos : forall n, 1 <= n -> (0 < inject_Z (Z.of_nat n))%Q.
Proof. intros n H. change 0%Q with (inject_Z 0). rewrite <- Zlt_Qlt. lia. Qed.
Lemma part_le : forall b n c, 1 <= n -> (part b n <= c <-> inject_Z (Z.of_nat b) <= c * inject_Z (Z.of_nat n))%Q.
Proof.
  intros b n c H. pose proof (qn_pos n H) as P. unfold part. split; intros K.
  - apply (Qmult_le_r _ _ _ P) in K.
    assert (inject_Z (Z.of_nat b) / inject_Z (Z.of_nat n) * inject_Z (Z.of_nat n) == inject_Z (Z.of_nat b))%Q as E
      by (field; intros E; rewrite E in P; discriminate P). rewrite E in K. exact K.
  - apply Qle_shift_div_r; assumption.
Qed.

Lemma part_lt : forall b n c, 1 <= n -> (c < part b n <-> c * inject_Z (Z.of_nat n) < inject_Z (Z.of_nat b))%Q.
Proof.
  intros b n c H. pose proof (part_le b n c H) as P. split; intros K; apply Qnot_le_lt; intros N; apply P in N;
    exact (Qlt_not_le _ _ K N).
Qed.
Lemma floor_is : forall d z, (inject_Z z <= d)%Q -> (d < inject_Z (z + 1))%Q -> Qfloor d = z.
Proof.
  intros d z H1 H2. pose proof (Qfloor_le d) as F1. pose proof (Qlt_floor d) as F2.
  assert (inject_Z z < inject_Z (Qfloor d + 1))%Q as A by (eapply Qle_lt_trans; eassumption).
  assert (inject_Z (Qfloor d) < inject_Z (z + 1))%Q as B by (eapply Qle_lt_trans; eassumption).
  rewrite <- Zlt_Qlt in A, B. lia.
Qed.
Lemma qle_lt_bool : forall a b, Qle_bool a b = false <-> (b < a)%Q.
Proof.
  intros a b. split; intros H.
  - apply Qnot_le_lt. intros K. apply Qle_bool_iff in K. congruence.
  - destruct (Qle_bool a b) eqn:E; [|reflexivity]. apply Qle_bool_iff in E. exfalso. exact (Qlt_not_le _ _ H E).
Qed.

(** bins in terms of the scaled confidence *)
Lemma in_bin_scaled : forall n b c, 1 <= n -> b < n -> 
  in_bin n b c = true <->
  (inject_Z (Z.of_nat b) <= c * inject_Z (Z.of_nat n))%Q /\
   ((c * inject_Z (Z.of_nat n) < inject_Z (Z.of_nat (b + 1)))%Q \/ (b = n - 1 /\ (c <= 1)%Q)).
Proof.
  intros n b c Hn Hb. unfold in_bin.
  rewrite andb_true_iff, orb_true_iff, andb_true_iff, negb_true_iff, Nat.eqb_eq, !Qle_bool_iff, qle_lt_bool.
  rewrite part_le, part_lt by exact Hn. reflexivity.
Qed.

Definition adj (nbin : nat) (d : Q) (i : Z) : Z :=
  if Qle_bool d (inject_Z (Z.of_nat nbin)) && (i =? Z.of_nat nbin)%Z then (Z.of_nat nbin - 1)%Z else i.

Lemma to_int_ok : forall d, (-(1000000000) <= d <= 1000000000)%Q ->
  to_int d = Ok (if Qle_bool 0 d then Qfloor d else Qceiling d).
Proof.
  intros d [H1 H2]. unfold to_int.
  assert (-(2 ^ 31) <= (if Qle_bool 0 d then Qfloor d else Qceiling d) < 2 ^ 31)%Z as B.
  { destruct (Qle_bool 0 d).
    - pose proof (Qfloor_le d) as F1. pose proof (Qlt_floor d) as F2.
      assert (inject_Z (Qfloor d) <= inject_Z 1000000000)%Q as A by (eapply Qle_trans; [exact F1|exact H2]).
      assert (inject_Z (-1000000000) < inject_Z (Qfloor d + 1))%Q as B by (eapply Qle_lt_trans; [exact H1|exact F2]).
      rewrite <- Zle_Qle in A. rewrite <- Zlt_Qlt in B. lia.
    - pose proof (Qle_ceiling d) as F1. pose proof (Qceiling_lt d) as F2.
      assert (inject_Z (Qceiling d - 1) < inject_Z 1000000000)%Q as A by (eapply Qlt_le_trans; [exact F2|exact H2]).
      assert (inject_Z (-1000000000) <= inject_Z (Qceiling d))%Q as B by (eapply Qle_trans; [exact H1|exact F1]).
      rewrite <- Zle_Qle in B. rewrite <- Zlt_Qlt in A. lia. }
  destruct (Z.leb_spec (-(2 ^ 31)) (if Qle_bool 0 d then Qfloor d else Qceiling d)); [|lia].
  destruct (Z.ltb_spec (if Qle_bool 0 d then Qfloor d else Qceiling d) (2 ^ 31)); [|lia]. reflexivity.
Qed.

Lemma scaled_bounds : forall n c, 1 <= n <= 1000 -> (-(1000000) <= c <= 1000000)%Q ->
  (-(1000000000) <= c * inject_Z (Z.of_nat n) <= 1000000000)%Q.
Proof.
  intros n c Hn [H1 H2].
  assert (1 <= inject_Z (Z.of_nat n))%Q as A by (change 1%Q with (inject_Z 1); rewrite <- Zle_Qle; lia).
  assert (inject_Z (Z.of_nat n) <= 1000)%Q as B by (change 1000%Q with (inject_Z 1000); rewrite <- Zle_Qle; lia).
  set (q := inject_Z (Z.of_nat n)) in *. split; nra.
Qed.

Lemma bin_index : forall n c, 1 <= n <= 1000 -> (-(1000000) <= c <= 1000000)%Q ->
  ~ (- part 1 n < c < 0)%Q ->
  let d := ((c - 0) / 1 * inject_Z (Z.of_nat n))%Q in
  exists i, to_int d = Ok i /\
    ((0 <= c <= 1)%Q /\ (exists b, adj n d i = Z.of_nat b /\ b < n /\ forall b', b' < n -> in_bin n b' c = (b' =? b)) \/
     ~ (0 <= c <= 1)%Q /\ ((adj n d i < 0)%Z \/ (Z.of_nat n <= adj n d i)%Z) /\
       forall b', b' < n -> in_bin n b' c = false).
Proof.
  intros n c Hn Hc Hneg d. set (q := inject_Z (Z.of_nat n)) in *.
  assert (d == c * q)%Q as Ed by (unfold d; field).
  assert (0 < q)%Q as Pq by (apply qn_pos; lia).
  assert (q == inject_Z (Z.of_nat n))%Q as Eq by reflexivity.
  exists (if Qle_bool 0 d then Qfloor d else Qceiling d). split.
  { apply to_int_ok. rewrite Ed. apply scaled_bounds; assumption. }
  destruct (Qlt_le_dec c 0) as [Neg|Pos].
  - right. split; [intros [K _]; exact (Qlt_not_le _ _ Neg K)|].
    assert (Qle_bool 0 d = false) as -> by (apply qle_lt_bool; rewrite Ed; nra).
    assert (c * q <= -(1))%Q as Hd.
    { destruct (Qlt_le_dec (- part 1 n) c) as [K|K]; [exfalso; apply Hneg; split; assumption|].
      assert (part 1 n <= - c)%Q as K' by lra. apply part_le in K'; [|lia]. fold q in K'.
      change (inject_Z (Z.of_nat 1)) with 1%Q in K'. lra. }
    assert (Qceiling d <= -1)%Z as Ce.
    { change (-1)%Z with (Qceiling (inject_Z (-1))). apply Qceiling_resp_le. rewrite Ed. exact Hd. }
    split.
    + left. unfold adj. destruct (Z.eqb_spec (Qceiling d) (Z.of_nat n)) as [E|E]; [lia|]. rewrite andb_false_r. lia.
    + intros b' Hb'. destruct (in_bin n b' c) eqn:I; [|reflexivity]. exfalso.
      apply in_bin_scaled in I; [|lia|exact Hb']. destruct I as [I _]. fold q in I.
      assert (0 <= inject_Z (Z.of_nat b'))%Q as B by (change 0%Q with (inject_Z 0); rewrite <- Zle_Qle; lia). lra.
  - assert (Qle_bool 0 d = true) as -> by (apply Qle_bool_iff; rewrite Ed; nra).
    assert (inject_Z (Qfloor d) <= c * q)%Q as F1 by (rewrite <- Ed; apply Qfloor_le).
    assert (c * q < inject_Z (Qfloor d + 1))%Q as F2 by (rewrite <- Ed; apply Qlt_floor).
    assert (0 <= Qfloor d)%Z as Fp.
    { change 0%Z with (Qfloor (inject_Z 0)). apply Qfloor_resp_le. rewrite Ed. change (inject_Z 0) with 0%Q. nra. }
    destruct (Qlt_le_dec 1 c) as [Big|Small].
    + right. split; [intros [_ K]; exact (Qlt_not_le _ _ Big K)|].
      assert (q < c * q)%Q as Hd by nra.
      assert (Z.of_nat n <= Qfloor d)%Z as Fn.
      { rewrite <- (Qfloor_Z (Z.of_nat n)). apply Qfloor_resp_le. fold q. rewrite Ed. lra. }
      split.
      * right. unfold adj. assert (Qle_bool d (inject_Z (Z.of_nat n)) = false) as ->
          by (apply qle_lt_bool; fold q; rewrite Ed; exact Hd). cbn [andb]. exact Fn.
      * intros b' Hb'. destruct (in_bin n b' c) eqn:I; [|reflexivity]. exfalso.
        apply in_bin_scaled in I; [|lia|exact Hb']. destruct I as [_ [I|[_ I]]].
        -- fold q in I. assert (inject_Z (Z.of_nat (b' + 1)) <= q)%Q as B by (unfold q; rewrite <- Zle_Qle; lia). lra.
        -- exact (Qlt_not_le _ _ Big I).
    + left. split; [split; assumption|].
      assert (c * q <= q)%Q as Hd by nra.
      assert (Qfloor d <= Z.of_nat n)%Z as Fn.
      { rewrite <- (Qfloor_Z (Z.of_nat n)). apply Qfloor_resp_le. fold q. rewrite Ed. exact Hd. }
      assert (forall b b', b' < n -> b < n ->
        (inject_Z (Z.of_nat b) <= c * q)%Q -> (c * q < inject_Z (Z.of_nat (b + 1)))%Q \/ b = n - 1 ->
        in_bin n b' c = (b' =? b)) as Key.
      { intros b b' Hb' Hb B1 B2.
        destruct (Nat.eqb_spec b' b) as [->|N].
        - apply in_bin_scaled; [lia|exact Hb|]. split; [exact B1|].
          destruct B2 as [B2|B2]; [left; exact B2|right; split; assumption].
        - destruct (in_bin n b' c) eqn:I; [|reflexivity]. exfalso.
          apply in_bin_scaled in I; [|lia|exact Hb']. fold q in I. destruct I as [I1 I2].
          destruct (Nat.lt_trichotomy b' b) as [L|[L|L]]; [|lia|].
          + destruct I2 as [I2|[I2 _]]; [|lia].
            assert (inject_Z (Z.of_nat (b' + 1)) <= inject_Z (Z.of_nat b))%Q as W by (rewrite <- Zle_Qle; lia). lra.
          + destruct B2 as [B2|B2]; [|lia].
            assert (inject_Z (Z.of_nat (b + 1)) <= inject_Z (Z.of_nat b'))%Q as W by (rewrite <- Zle_Qle; lia). lra. }
      unfold adj. assert (Qle_bool d (inject_Z (Z.of_nat n)) = true) as ->
          by (apply Qle_bool_iff; fold q; rewrite Ed; exact Hd). cbn [andb].
      destruct (Z.eqb_spec (Qfloor d) (Z.of_nat n)) as [E|E].
      * exists (n - 1). split; [lia|]. split; [lia|]. intros b' Hb'. apply Key; [exact Hb'|lia| |right; reflexivity].
        rewrite E in F1. fold q in F1. eapply Qle_trans; [|exact F1]. unfold q. rewrite <- Zle_Qle. lia.
      * exists (Z.to_nat (Qfloor d)). split; [lia|]. split; [lia|]. intros b' Hb'. apply Key; [exact Hb'|lia| |left].
        -- rewrite Z2Nat.id by exact Fp. exact F1.
        -- rewrite Nat2Z.inj_add, Z2Nat.id by exact Fp. exact F2.
Qed.

(** ** Counting *)
Definition cor_in (n b : nat) (l : list step) : nat :=
  length (filter (fun x => in_bin n b (s_conf x) && is_corr (s_eval x)) l).
Definition inc_in (n b : nat) (l : list step) : nat :=
  length (filter (fun x => in_bin n b (s_conf x) && negb (is_corr (s_eval x))) l).
Definition out_in (l : list step) : nat :=
  length (filter (fun x => negb (Qle_bool 0 (s_conf x) && Qle_bool (s_conf x) 1)) l).
Lemma nth_set : forall A (l : list A) i x j d, i < length l ->
  nth j (firstn i l ++ x :: skipn (S i) l) d = if j =? i then x else nth j l d.
Proof.
  induction l as [|y l IH]; intros i x j d H; cbn [length] in H; [lia|].
  destruct i as [|i]; cbn [firstn skipn app].
  - destruct j; reflexivity.
  - destruct j as [|j]; cbn [nth Nat.eqb]; [reflexivity|]. rewrite IH by lia. reflexivity.
Qed.

Lemma bin_words_ok : forall n, 1 <= n <= 1000 -> forall l h e,
  Forall (fun x => -(1000000) <= s_conf x <= 1000000 /\ ~ (- part 1 n < s_conf x < 0))%Q l ->
  length h = n -> exists h' e', bin_words n (h, e) l = Ok (h', e') /\ length h' = n /\
    e' = e + out_in l /\
    forall b, b < n -> fst (nth b h' (0, 0)) = fst (nth b h (0, 0)) + cor_in n b l /\
                       snd (nth b h' (0, 0)) = snd (nth b h (0, 0)) + inc_in n b l.
Proof.
  intros n Hn. induction l as [|x l IH]; intros h e F Hh.
  - exists h, e. unfold cor_in, inc_in, out_in. cbn [filter length].
    split; [reflexivity|]. split; [exact Hh|]. split; [lia|]. intros b Hb. lia.
  - inversion F as [|? ? [F1 F2] F3]; subst.
    destruct (bin_index (length h) (s_conf x) Hn F1 F2) as (i & Ei & Hi). cbn [bin_words].
    unfold bin_word. rewrite Ei. cbn [rbind].
    fold (adj (length h) ((s_conf x - 0) / 1 * inject_Z (Z.of_nat (length h))) i).
    destruct Hi as [(R & b & -> & Hb & K)|(R & O & K)].
    + destruct (Z.ltb_spec (Z.of_nat b) 0); [lia|]. destruct (Z.leb_spec (Z.of_nat (length h)) (Z.of_nat b)); [lia|].
      cbn [orb]. rewrite Nat2Z.id. unfold get at 1. rewrite (nth_error_nth' h (0, 0) Hb). cbn [rbind].
      rewrite set_ok by exact Hb. cbn [rbind].
      set (h1 := firstn b h ++ _).
      destruct (IH h1 e F3) as (h' & e' & E & L & Ee & B).
      { unfold h1. rewrite app_length. cbn [length]. rewrite firstn_length, skipn_length. lia. }
      exists h', e'. split; [exact E|]. split; [exact L|]. split.
      { rewrite Ee. unfold out_in. cbn [filter].
        assert (Qle_bool 0 (s_conf x) = true) as -> by (apply Qle_bool_iff, R).
        assert (Qle_bool (s_conf x) 1 = true) as -> by (apply Qle_bool_iff, R). reflexivity. }
      intros b' Hb'. destruct (B b' Hb') as [B1 B2]. rewrite B1, B2. unfold h1. rewrite nth_set by exact Hb.
      unfold cor_in, inc_in. cbn [filter]. rewrite (K b' Hb').
      destruct (Nat.eqb_spec b' b) as [->|N]; cbn [andb].
      * destruct (is_corr (s_eval x)); cbn [negb fst snd length]; lia.
      * lia.
    + destruct ((adj (length h) ((s_conf x - 0) / 1 * inject_Z (Z.of_nat (length h))) i <? 0)%Z
        || (Z.of_nat (length h) <=? adj (length h) ((s_conf x - 0) / 1 * inject_Z (Z.of_nat (length h))) i)%Z) eqn:T.
      2: { apply orb_false_elim in T. destruct T as [T1 T2]. apply Z.ltb_ge in T1. apply Z.leb_gt in T2. lia. }
      cbn [rbind]. destruct (IH h (S e) F3 eq_refl) as (h' & e' & E & L & Ee & B).
      exists h', e'. split; [exact E|]. split; [exact L|]. split.
      { rewrite Ee. unfold out_in. cbn [filter].
        destruct (Qle_bool 0 (s_conf x)) eqn:Q1; cbn [andb negb length]; [|lia].
        destruct (Qle_bool (s_conf x) 1) eqn:Q2; cbn [andb negb length]; [|lia].
        exfalso. apply R. split; apply Qle_bool_iff; assumption. }
      intros b' Hb'. destruct (B b' Hb') as [B1 B2]. rewrite B1, B2.
      unfold cor_in, inc_in. cbn [filter]. rewrite (K b' Hb'). cbn [andb]. split; reflexivity.
Qed.

Lemma binned_ok : forall n sc, 1 <= n <= 1000 -> binnable n sc ->
  exists h, binned n sc = Ok (h, out_of_range sc) /\ length h = n /\
    forall b, b < n -> nth_error h b = Some (bin_correct n b sc, bin_incorrect n b sc).
Proof.
  intros n sc Hn F. unfold binned. rewrite words_said.
  destruct (bin_words_ok n Hn (said sc) (repeat (0, 0) n) 0 F (repeat_length _ _)) as (h & e & E & L & -> & B).
  exists h. split; [exact E|]. split; [exact L|]. intros b Hb. destruct (B b Hb) as [B1 B2].
  rewrite (nth_error_nth' h (0, 0)) by lia. f_equal.
  assert (nth b (repeat (0, 0) n) (0, 0) = (0, 0)) as Z by (apply nth_repeat).
  rewrite Z in B1, B2. cbn [fst snd] in B1, B2.
  rewrite (surjective_pairing (nth b h (0, 0))), B1, B2. reflexivity.
Qed.

Lemma hist_lines_nth : forall n h b0 b c i, nth_error h b = Some (c, i) ->
  nth_error (hist_lines n b0 h) (2 * b) = Some ((inject_Z (Z.of_nat (b0 + b)) * (1 / inject_Z (Z.of_nat n)))%Q, c + i, c, i) /\
  nth_error (hist_lines n b0 h) (2 * b + 1) = Some ((inject_Z (Z.of_nat (b0 + b + 1)) * (1 / inject_Z (Z.of_nat n)))%Q, c + i, c, i).
Proof.
  induction h as [|[c0 i0] h IH]; intros b0 b c i H; [destruct b; discriminate H|].
  destruct b as [|b]; cbn [nth_error] in H.
  - inversion H; subst. cbn [Nat.mul Nat.add hist_lines nth_error]. rewrite Nat.add_0_r. split; reflexivity.
  - destruct (IH (b0 + 1) b c i H) as [H1 H2].
    replace (2 * S b) with (S (S (2 * b))) by lia. replace (S (S (2 * b)) + 1) with (S (S (2 * b + 1))) by lia.
    cbn [hist_lines]. cbv zeta. cbn [nth_error]. rewrite H1, H2.
    replace (b0 + 1 + b) with (b0 + S b) by lia. split; reflexivity.
Qed.
Lemma hist_lines_len : forall n h b, length (hist_lines n b h) = 2 * length h.
Proof.
  induction h as [|[c i] h IH]; intros b; cbn [hist_lines]; cbv zeta; cbn [length]; [reflexivity|]. rewrite IH. lia.
Qed.
Lemma binned_lines_nth : forall h b0 b c, nth_error h b = Some c ->
  nth_error (binned_lines b0 h) b = Some ((inject_Z (Z.of_nat (b0 + b)) * (1 # 10) + (5 # 100))%Q, pct_corr c).
Proof.
  induction h as [|c0 h IH]; intros b0 b c H; [destruct b; discriminate H|].
  destruct b as [|b]; cbn [nth_error] in H; cbn [binned_lines nth_error].
  - inversion H. rewrite Nat.add_0_r. reflexivity.
  - rewrite (IH (b0 + 1) b c H). replace (b0 + 1 + b) with (b0 + S b) by lia. reflexivity.
Qed.
Lemma binned_lines_len : forall h b, length (binned_lines b h) = length h.
Proof. induction h as [|c h IH]; intros b; cbn [binned_lines length]; [reflexivity|]. rewrite IH. reflexivity. Qed.
