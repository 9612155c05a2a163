(** The segments of all sentences, and the statistic. *)
From Coq Require Import List Arith ZArith NArith QArith Bool Lia Lqa.
From Verif Require Import Base NetDp_Model Word_Model Order_Model Path_Model Path_Spec Binom_Model SysTest_Model Scores_Model Scores_Spec Scores_Proofs Scores_Proofs2 Mapsswe_Model Mapsswe_Spec Mapsswe_Proofs.
Import ListNotations.
Local Open Scope res_scope.
Local Open Scope nat_scope.

Section Systems.
Variable differ : sentence -> sentence -> nat -> nat -> bool.
Variable mg : nat.
Hypothesis Mg : 1 <= mg.
Definition wf_sent (x : sentence) : Prop := Forall well_formed_step (s_steps x).
Definition some_err (s : seg) : Prop := 0 < sg_err1 s + sg_err2 s.
Definition mate (ys : list sentence) (x : sentence) : option sentence := find (fun y => same (s_id x) (s_id y)) ys.
Definition e1 (ys : list sentence) (x : sentence) : nat := match mate ys x with Some _ => errors (s_steps x) | None => 0 end.
Definition e2 (ys : list sentence) (x : sentence) : nat := match mate ys x with Some y => errors (s_steps y) | None => 0 end.

Lemma skipn_S {A} (l : list A) i x : nth_error l i = Some x -> skipn i l = x :: skipn (i + 1) l.
Proof.
  revert i. induction l; intros [|i] X; try discriminate; cbn [nth_error skipn] in *; [injection X as ->; reflexivity|]. apply IHl in X. rewrite X.
  replace (S i + 1) with (S (i + 1)) by lia. reflexivity.
Qed.
Lemma mp_snt2_ok x g ys segs : entries (g_path g) ys -> wf_sent x -> Forall wf_sent ys -> forall k i, i + k = length ys ->
  exists new, mp_snt2 differ mg x g k i segs = Ok (segs ++ new) /\ Forall some_err new /\ total sg_err1 new = e1 (skipn i ys) x /\ total sg_err2 new = e2 (skipn i ys) x.
Proof.
  intros H Wx Wy. induction k; intros i E; cbn [mp_snt2].
  - rewrite skipn_all2 by lia. exists []. rewrite app_nil_r. auto.
  - destruct (nth_error ys i) as [y|] eqn:Y; [|apply nth_error_None in Y; lia].
    rewrite (kept_ok _ _ _ _ H Y). cbn [rbind]. rewrite (skipn_S ys i y Y). unfold e1, e2, mate. cbn [find].
    destruct (same (s_id x) (s_id y)).
    + assert (Wyy : wf_sent y) by (rewrite Forall_forall in Wy; apply Wy; eapply nth_error_In; eassumption).
      destruct (test_ok (differ x y) (s_steps x) (s_steps y) mg Wx Wyy Mg segs) as (new & En & P & T1 & T2 & _). exists new. split; [exact En|]. split; [eapply Forall_impl; [|exact P]; intros sg Hs; apply Hs|]. auto.
    + apply IHk. lia.
Qed.
Lemma mp_snt1_ok g1 g2 xs ys : entries (g_path g1) xs -> entries (g_path g2) ys -> Forall wf_sent xs -> Forall wf_sent ys -> forall k i segs, i + k = length xs ->
  exists new, mp_snt1 differ mg g1 g2 k i segs = Ok (segs ++ new) /\ Forall some_err new /\ total sg_err1 new = nsum (map (e1 ys) (skipn i xs)) /\ total sg_err2 new = nsum (map (e2 ys) (skipn i xs)).
Proof.
  intros H1 H2 W1 W2. induction k; intros i segs E; cbn [mp_snt1].
  - rewrite skipn_all2 by lia. exists []. rewrite app_nil_r. auto.
  - destruct (nth_error xs i) as [x|] eqn:X; [|apply nth_error_None in X; lia].
    rewrite (kept_ok _ _ _ _ H1 X). cbn [rbind].
    assert (Wx : wf_sent x) by (rewrite Forall_forall in W1; apply W1; eapply nth_error_In; eassumption).
    destruct (mp_snt2_ok x g2 ys segs H2 Wx W2 (p_num (g_path g2)) 0) as (n1 & E1 & P1 & T1 & T2); [apply H2|]. rewrite E1. cbn [rbind].
    destruct (IHk (i + 1) (segs ++ n1)) as (n2 & E2 & P2 & U1 & U2); [lia|]. rewrite E2. exists (n1 ++ n2). rewrite app_assoc. split; [reflexivity|].
    split; [apply Forall_app; auto|]. rewrite !total_app, (skipn_S xs i x X). cbn [map nsum]. cbn [skipn] in T1, T2. lia.
Qed.

Definition ks (n : list N) (cs : list call) : list sentence := kept_sentences (calls_of n cs).
Lemma ks_wf n cs : Forall (fun c => Forall well_formed_step (s_steps (sentence_of c))) cs -> Forall wf_sent (ks n cs).
Proof.
  intros H. unfold ks, kept_sentences, calls_of. rewrite Forall_forall in *. intros x I. apply in_map_iff in I. destruct I as (c & <- & I).
  apply filter_In in I. destruct I as [I _]. apply filter_In in I. apply H. apply I.
Qed.
Lemma spk_ok sys1 sys2 cs1 cs2 : state_ok sys1 cs1 -> state_ok sys2 cs2 ->
  Forall (fun c => Forall well_formed_step (s_steps (sentence_of c))) cs1 -> Forall (fun c => Forall well_formed_step (s_steps (sentence_of c))) cs2 ->
  exists segs, mp_spk differ mg sys1 sys2 (p_num sys1) 0 [] = Ok segs /\ Forall some_err segs
    /\ total sg_err1 segs = nsum (map (fun n => nsum (map (e1 (ks n cs2)) (ks n cs1))) (speakers cs1))
    /\ total sg_err2 segs = nsum (map (fun n => nsum (map (e2 (ks n cs2)) (ks n cs1))) (speakers cs1)).
Proof.
  intros (gs1 & R1 & N1 & F1) (gs2 & R2 & N2 & F2) W1 W2.
  assert (G : forall k i segs, i + k = length gs1 -> exists new, mp_spk differ mg sys1 sys2 k i segs = Ok (segs ++ new) /\ Forall some_err new
    /\ total sg_err1 new = nsum (map (fun n => nsum (map (e1 (ks n cs2)) (ks n cs1))) (map g_name (skipn i gs1)))
    /\ total sg_err2 new = nsum (map (fun n => nsum (map (e2 (ks n cs2)) (ks n cs1))) (map g_name (skipn i gs1)))).
  { induction k; intros i segs E; cbn [mp_spk].
    - rewrite skipn_all2 by lia. exists []. rewrite app_nil_r. auto.
    - destruct (nth_error gs1 i) as [g|] eqn:X; [|apply nth_error_None in X; lia].
      rewrite (get_entry sys1 gs1 i g (proj1 R1) X). cbn [rbind]. rewrite (skipn_S gs1 i g X). cbn [map nsum].
      assert (Ig : Scores_Proofs.inv g (calls_of (g_name g) cs1)) by (rewrite Forall_forall in F1; apply F1; eapply nth_error_In; eassumption).
      destruct R2 as (R2 & _). assert (Nn : p_num sys2 = length gs2) by apply R2. rewrite Nn.
      destruct (find_ok sys2 gs2 (g_name g) R2 (length gs2) 0 eq_refl) as [[Ef Abs]|(j & g2 & Ef & Hj & _ & Gn & _)]; rewrite Ef; cbn [rbind].
      + destruct (IHk (i + 1) segs) as (new & En & P & T1 & T2); [lia|]. exists new. split; [exact En|]. split; [exact P|].
        assert (Z : ks (g_name g) cs2 = []).
        { unfold ks. rewrite (no_calls (g_name g) cs2); [reflexivity|]. rewrite <- N2. intros I. apply in_map_iff in I. destruct I as (h & Hn & I).
          apply In_nth_error in I. destruct I as [j Hj]. apply (Abs j h Hj); [lia|exact Hn]. }
        rewrite Z. rewrite T1, T2. assert (Z1 : forall xs, nsum (map (e1 []) xs) = 0) by (induction xs; [reflexivity|exact IHxs]).
        assert (Z2 : forall xs, nsum (map (e2 []) xs) = 0) by (induction xs; [reflexivity|exact IHxs]). rewrite Z1, Z2. auto.
      + rewrite (get_entry sys2 gs2 j g2 R2 Hj). cbn [rbind].
        assert (Ig2 : Scores_Proofs.inv g2 (calls_of (g_name g2) cs2)) by (rewrite Forall_forall in F2; apply F2; eapply nth_error_In; eassumption).
        rewrite Gn in Ig2. destruct Ig as [_ (K1 & _)], Ig2 as [_ (K2 & _)].
        destruct (mp_snt1_ok g g2 _ _ K1 K2 (ks_wf (g_name g) cs1 W1) (ks_wf (g_name g) cs2 W2) (p_num (g_path g)) 0 segs) as (n1 & E1 & P1 & T1 & T2); [apply K1|].
        rewrite E1. cbn [rbind]. destruct (IHk (i + 1) (segs ++ n1)) as (n2 & E2 & P2 & U1 & U2); [lia|]. rewrite E2. exists (n1 ++ n2).
        rewrite app_assoc. split; [reflexivity|]. split; [apply Forall_app; auto|]. rewrite !total_app. cbn [skipn] in T1, T2. fold (ks (g_name g) cs1) (ks (g_name g) cs2) in T1, T2. lia. }
  assert (Nn : p_num sys1 = length gs1) by apply R1. rewrite Nn. destruct (G (length gs1) 0 []) as (new & En & P & T1 & T2); [lia|].
  exists new. split; [exact En|]. split; [exact P|]. cbn [skipn] in T1, T2. rewrite N1 in T1, T2. auto.
Qed.
End Systems.

Lemma find_map {A B} (g : A -> B) f l : find f (map g l) = option_map g (find (fun x => f (g x)) l).
Proof. induction l; cbn [map find]; [reflexivity|]. destruct (f (g a)); [reflexivity|exact IHl]. Qed.
Lemma find_filter {A} (h f : A -> bool) l : find f (filter h l) = find (fun x => h x && f x) l.
Proof. induction l; cbn [filter find]; [reflexivity|]. destruct (h a); cbn [find andb]; [destruct (f a); [reflexivity|exact IHl]|exact IHl]. Qed.
Lemma find_ext {A} (f h : A -> bool) l : (forall x, f x = h x) -> find f l = find h l.
Proof. intros H. induction l; cbn [find]; [reflexivity|]. rewrite H, IHl. reflexivity. Qed.
Lemma mate_partner cs2 c : mate (ks (speaker_of c) cs2) (sentence_of c) = option_map sentence_of (partner cs2 c).
Proof.
  unfold mate, ks, kept_sentences, calls_of, partner. rewrite find_map. f_equal. rewrite find_filter, find_filter.
  apply find_ext. intros d. destruct (kept_of d), (same (speaker_of c) (speaker_of d)); reflexivity.
Qed.
Lemma sum_nsum l : sum l = nsum l.
Proof. induction l; cbn [sum nsum]; congruence. Qed.

Lemma group_sum (h : list sentence -> sentence -> nat) cs1 cs2 :
  nsum (map (fun n => nsum (map (h (ks n cs2)) (ks n cs1))) (speakers cs1))
  = nsum (map (fun c => h (ks (speaker_of c) cs2) (sentence_of c)) (filter kept_of cs1)).
Proof.
  rewrite <- (by_key (fun c => h (ks (speaker_of c) cs2) (sentence_of c)) (filter kept_of cs1) (speakers cs1)).
  - f_equal. apply map_ext. intros n. assert (K : ks n cs1 = map sentence_of (calls_of n (filter kept_of cs1))) by (unfold ks, kept_sentences, calls_of; f_equal; apply filter_comm).
    rewrite K, map_map. f_equal.
    apply map_ext_in. intros c I. apply filter_In in I. destruct I as [_ S]. apply same_iff in S. rewrite S. reflexivity.
  - apply speakers_nodup.
  - intros c I. apply in_speakers. exists c. split; [|reflexivity]. apply filter_In in I. apply I.
Qed.
Lemma group_sum1 cs1 cs2 : nsum (map (fun n => nsum (map (e1 (ks n cs2)) (ks n cs1))) (speakers cs1)) = compared1 cs1 cs2.
Proof.
  rewrite group_sum. unfold compared1. refine (f_equal nsum _). apply map_ext. intros c. unfold e1. rewrite mate_partner. destruct (partner cs2 c); reflexivity.
Qed.
Lemma group_sum2 cs1 cs2 : nsum (map (fun n => nsum (map (e2 (ks n cs2)) (ks n cs1))) (speakers cs1)) = compared2 cs1 cs2.
Proof.
  rewrite group_sum. unfold compared2. refine (f_equal nsum _). apply map_ext. intros c. unfold e2. rewrite mate_partner. destruct (partner cs2 c); reflexivity.
Qed.

(** * the statistic *)
Local Open Scope Q_scope.
Lemma qsum_fold (l : list Q) : forall t, fold_left Qplus l t == t + sum_q l.
Proof. induction l; intros t; cbn [fold_left sum_q fold_right]; [ring|]. rewrite IHl. unfold sum_q. ring. Qed.
Lemma fold_map {A} (f : A -> Q) (l : list A) : forall t, fold_left (fun t z => t + f z) l t = fold_left Qplus (map f l) t.
Proof. induction l; intros t; cbn [fold_left map]; [reflexivity|apply IHl]. Qed.
Lemma qsum_ok l : qsum_z l == sum_q (map inject_Z l).
Proof. unfold qsum_z. rewrite (fold_map inject_Z), qsum_fold. ring. Qed.
Lemma deviations_ok l m m' : m == m' -> deviations l m == sum_q (map (fun z => (inject_Z z - m') * (inject_Z z - m')) l).
Proof.
  intros E. unfold deviations. rewrite (fold_map (fun z => (inject_Z z - m) * (inject_Z z - m))), qsum_fold. rewrite Qplus_0_l.
  induction l; cbn [map sum_q fold_right]; [reflexivity|]. unfold sum_q in IHl. rewrite IHl, E. reflexivity.
Qed.
Lemma normprob_proper d d' v v' : d == d' -> v == v' -> normprob d v = normprob d' v'.
Proof.
  intros Hd Hv. unfold normprob. f_equal. generalize (hd 0%Z fnorm), (tl znorm), (tl fnorm). intros z l. revert z.
  induction l as [|x l IH]; intros z fs; [reflexivity|]. destruct fs as [|f fs]; [reflexivity|]. cbn [normprob_walk]. cbv zeta.
  replace (Qle_bool (unit9 x * unit9 x * v) d) with (Qle_bool (unit9 x * unit9 x * v') d') by (rewrite Hd, Hv; reflexivity).
  replace (Qle_bool d (unit9 x * unit9 x * v)) with (Qle_bool d' (unit9 x * unit9 x * v')) by (rewrite Hd, Hv; reflexivity).
  rewrite IH. reflexivity.
Qed.

Lemma sumsq_nonneg {A} (f : A -> Q) l : 0 <= sum_q (map (fun z => f z * f z) l).
Proof. induction l; cbn [map sum_q fold_right]; [lra|]. unfold sum_q in IHl. assert (0 <= f a * f a) by nra. lra. Qed.
Lemma sumsq_zero {A} (f : A -> Q) l : sum_q (map (fun z => f z * f z) l) == 0 -> forall x, In x l -> f x == 0.
Proof.
  induction l as [|a l IH]; intros H x I; [destruct I|]. cbn [map sum_q fold_right] in H. pose proof (sumsq_nonneg f l) as P. unfold sum_q in P.
  assert (0 <= f a * f a) by nra. assert (Z : f a * f a == 0) by lra. destruct I as [<-|I].
  - apply Qmult_integral in Z. tauto.
  - apply IH; [|exact I]. unfold sum_q. lra.
Qed.
Lemma sumsq_all {A} (f : A -> Q) l : (forall x, In x l -> f x == 0) -> sum_q (map (fun z => f z * f z) l) == 0.
Proof.
  intros H. induction l as [|a l IH]; cbn [map sum_q fold_right]; [reflexivity|]. unfold sum_q in IH. rewrite IH; [|intros x I; apply H; right; exact I].
  rewrite (H a); [ring|left; reflexivity].
Qed.
Lemma sum_const l z : (forall x, In x l -> x = z) -> sum_q (map inject_Z l) == inject_Z z * inject_Z (Z.of_nat (length l)).
Proof.
  intros H. induction l as [|a l IH]; cbn [map sum_q fold_right length]; [ring|]. unfold sum_q in IH. rewrite IH; [|intros x I; apply H; right; exact I].
  rewrite (H a) by (left; reflexivity). rewrite Nat2Z.inj_succ. unfold Z.succ. rewrite inject_Z_plus. ring.
Qed.
Lemma squares_zero l : l <> [] -> (squares l == 0 <-> exists z, forall x, In x l -> x = z).
Proof.
  intros N. unfold squares. assert (P : ~ inject_Z (Z.of_nat (length l)) == 0).
  { intros Q. assert (Z.of_nat (length l) = 0%Z) by (apply inject_Z_injective; exact Q). destruct l; [congruence|cbn [length] in *; lia]. }
  split.
  - intros H. destruct l as [|z l]; [congruence|]. exists z. intros x I. set (m := mean_of (z :: l)) in *. clearbody m.
    pose proof (sumsq_zero (fun z => inject_Z z - m) _ H x I) as A.
    pose proof (sumsq_zero (fun z => inject_Z z - m) _ H z (or_introl eq_refl)) as B. apply inject_Z_injective. cbv beta in A, B. lra.
  - intros [z H]. apply (sumsq_all (fun z => inject_Z z - mean_of l)). intros x I. unfold mean_of. rewrite (sum_const l z H), (H x I). field. exact P.
Qed.

Definition varying (l : list Z) : Prop := exists x y, In x l /\ In y l /\ x <> y.
Lemma varying_dec l : l <> [] -> (exists z, forall x, In x l -> x = z) \/ varying l.
Proof.
  intros N. destruct l as [|z l]; [congruence|]. destruct (Forall_dec (fun x => x = z) (fun x => Z.eq_dec x z) l) as [F|F].
  - left. exists z. intros x [<-|I]; [reflexivity|]. rewrite Forall_forall in F. apply F. exact I.
  - right. apply neg_Forall_Exists_neg in F; [|intros; apply Z.eq_dec]. apply Exists_exists in F. destruct F as (x & I & D).
    exists x, z. split; [right; exact I|]. split; [left; reflexivity|exact D].
Qed.

Definition n_of (l : list Z) : Q := inject_Z (Z.of_nat (length l)).
Lemma mapsswe_ok segs : segs <> [] ->
  exists r c, mapsswe segs = Ok (r, c)
    /\ let d := map difference segs in
       ((exists z, forall x, In x d -> x = z) -> r = 0%Z)
       /\ (varying d -> (r <> 0%Z <-> (196 # 100) * (196 # 100) * variance d < n_of d * (mean_of d * mean_of d))
                        /\ c == 2 * (1 - normprob (n_of d * (mean_of d * mean_of d)) (variance d)))
       /\ (r = 0%Z \/ r = 1%Z /\ 0 < mean_of d \/ r = (-1)%Z /\ mean_of d < 0).
Proof.
  intros N. unfold mapsswe. fold difference. change (fun s => (Z.of_nat (sg_err1 s) - Z.of_nat (sg_err2 s))%Z) with difference. cbv zeta.
  assert (Nd : map difference segs <> []) by (destruct segs; [congruence|discriminate]).
  set (d := map difference segs) in *. clearbody d. clear N segs.
  assert (M : mean_and_dev d = Ok (qsum_z d / n_of d, deviations d (qsum_z d / n_of d))) by (destruct d; [congruence|reflexivity]).
  rewrite M. cbn [rbind]. fold (n_of d).
  assert (Em : qsum_z d / n_of d == mean_of d) by (unfold mean_of, n_of; rewrite qsum_ok; reflexivity).
  assert (Ed : deviations d (qsum_z d / n_of d) == squares d) by (apply deviations_ok; exact Em).
  set (m := qsum_z d / n_of d) in *. set (v := deviations d m) in *. clearbody m v.
  pose proof (squares_zero d Nd) as Sz.
  destruct (Qeq_bool v 0) eqn:Q.
  - apply Qeq_bool_iff in Q. rewrite Q in Ed. symmetry in Ed. apply Sz in Ed. eexists _, _. split; [reflexivity|]. split; [reflexivity|]. split; [|left; reflexivity].
    intros (x & y & Ix & Iy & D). exfalso. destruct Ed as [z H]. apply D. rewrite (H x Ix), (H y Iy). reflexivity.
  - apply Qeq_bool_neq in Q. eexists _, _. split; [reflexivity|].
    assert (Ev : v / (n_of d - 1) == variance d) by (unfold variance, n_of; rewrite Ed; reflexivity).
    assert (E2 : m * m * n_of d == n_of d * (mean_of d * mean_of d)) by (rewrite Em; ring).
    assert (Vp : 0 <= variance d).
    { rewrite <- Ev. unfold n_of. assert (0 <= v) by (rewrite Ed; unfold squares; apply (sumsq_nonneg (fun z => inject_Z z - mean_of d))).
      assert (L : 2 <= inject_Z (Z.of_nat (length d))).
      { change 2 with (inject_Z 2). rewrite <- Zle_Qle. destruct d as [|x [|y d]]; [congruence| |cbn [length]; lia].
        exfalso. apply Q. rewrite Ed. apply Sz. exists x. intros y [<-|[]]. reflexivity. }
      apply Qle_shift_div_l; lra. }
    assert (Np : 0 < n_of d).
    { unfold n_of. change 0 with (inject_Z 0). rewrite <- Zlt_Qlt. destruct d; [congruence|cbn [length]; lia]. }
    assert (Zc : z95 * z95 == (196 # 100) * (196 # 100)) by reflexivity.
    split; [intros H; exfalso; apply Q; rewrite Ed; apply Sz; exact H|]. split.
    { intros _. split.
      - assert (B : Qle_bool (m * m * n_of d) (z95 * z95 * (v / (n_of d - 1))) = Qle_bool (n_of d * (mean_of d * mean_of d)) ((196 # 100) * (196 # 100) * variance d)).
        { rewrite E2, Ev, Zc. reflexivity. }
        rewrite B. destruct (Qle_bool (n_of d * _) _) eqn:L.
        + apply Qle_bool_iff in L. split; [destruct (Qle_bool 0 m); unfold NO_DIFF; cbn; congruence|]. intros L'. exfalso. revert L'. apply Qle_not_lt. exact L.
        + split; [|destruct (Qle_bool 0 m); unfold TEST_DIFF; cbn; congruence]. intros _. apply Qnot_le_lt. intros L'. apply Qle_bool_iff in L'. congruence.
      - rewrite (normprob_proper _ _ _ _ E2 Ev). ring. }
    destruct (Qle_bool (m * m * n_of d) _) eqn:L; [left; destruct (Qle_bool 0 m); reflexivity|]. right.
    assert (L' : z95 * z95 * (v / (n_of d - 1)) < m * m * n_of d). { apply Qnot_le_lt. intros K. apply Qle_bool_iff in K. congruence. }
    rewrite Ev, Zc in L'. assert (Mz : ~ m == 0). { intros K. rewrite K in L'. lra. }
    destruct (Qle_bool 0 m) eqn:S.
    + apply Qle_bool_iff in S. left. split; [reflexivity|]. rewrite <- Em. apply Qnot_le_lt. intros K. apply Mz. lra.
    + right. split; [reflexivity|]. rewrite <- Em. apply Qnot_le_lt. intros K. apply Qle_bool_iff in K. congruence.
Qed.

(** exchanging the systems *)
Lemma sum_opp l : sum_q (map inject_Z (map Z.opp l)) == - sum_q (map inject_Z l).
Proof. induction l; cbn [map sum_q fold_right]; [reflexivity|]. unfold sum_q in IHl. rewrite IHl, inject_Z_opp. ring. Qed.
Lemma mean_opp l : mean_of (map Z.opp l) == - mean_of l.
Proof. unfold mean_of. rewrite sum_opp, map_length. unfold Qdiv. ring. Qed.
Lemma squares_opp l : squares (map Z.opp l) == squares l.
Proof.
  unfold squares. pose proof (mean_opp l) as M. set (m' := mean_of (map Z.opp l)) in *. set (m := mean_of l) in *. clearbody m m'.
  induction l; cbn [map sum_q fold_right]; [reflexivity|]. unfold sum_q in IHl. rewrite IHl, M, inject_Z_opp. ring.
Qed.
Lemma variance_opp l : variance (map Z.opp l) == variance l.
Proof. unfold variance. rewrite squares_opp, map_length. reflexivity. Qed.
Lemma difference_swap segs : map difference (map swap_seg segs) = map Z.opp (map difference segs).
Proof. rewrite !map_map. apply map_ext. intros s. unfold difference, swap_seg. cbn [sg_err1 sg_err2]. lia. Qed.

Lemma mapsswe_swap segs : segs <> [] -> exists r c c', mapsswe segs = Ok (r, c) /\ mapsswe (map swap_seg segs) = Ok ((- r)%Z, c') /\ c == c'.
Proof.
  intros N. assert (N' : map swap_seg segs <> []) by (destruct segs; [congruence|discriminate]).
  destruct (mapsswe_ok segs N) as (r & c & E & A & B & C). destruct (mapsswe_ok (map swap_seg segs) N') as (r' & c' & E' & A' & B' & C').
  cbv zeta in *. rewrite difference_swap in *. set (d := map difference segs) in *.
  assert (Nd : d <> []) by (subst d; destruct segs; [congruence|discriminate]).
  assert (Nn : n_of (map Z.opp d) = n_of d) by (unfold n_of; rewrite map_length; reflexivity).
  pose proof (mean_opp d) as Mo. pose proof (variance_opp d) as Vo.
  destruct (varying_dec d Nd) as [H|H].
  - specialize (A H). assert (H' : exists z, forall x, In x (map Z.opp d) -> x = z).
    { destruct H as [z H]. exists (- z)%Z. intros x I. apply in_map_iff in I. destruct I as (y & <- & I). rewrite (H y I). reflexivity. }
    specialize (A' H'). subst r r'. exists 0%Z, c, c'. split; [exact E|]. split; [exact E'|].
    (* both values are the one of the statistic 0 *)
    clear - E E' H H' Nd. unfold mapsswe in E, E'. change (fun s => (Z.of_nat (sg_err1 s) - Z.of_nat (sg_err2 s))%Z) with difference in E, E'. rewrite difference_swap in E'.
    fold d in E, E'. cbv zeta in E, E'.
    assert (M : forall l, l <> [] -> mean_and_dev l = Ok (qsum_z l / n_of l, deviations l (qsum_z l / n_of l))) by (intros l Hl; destruct l; [congruence|reflexivity]).
    assert (Nd' : map Z.opp d <> []) by (destruct d; [congruence|discriminate]).
    rewrite (M d Nd) in E. rewrite (M _ Nd') in E'. cbn [rbind] in E, E'.
    assert (Z1 : Qeq_bool (deviations d (qsum_z d / n_of d)) 0 = true).
    { apply Qeq_bool_iff. rewrite (deviations_ok d _ (mean_of d)); [apply (squares_zero d Nd); exact H|]. unfold mean_of, n_of. rewrite qsum_ok. reflexivity. }
    assert (Z2 : Qeq_bool (deviations (map Z.opp d) (qsum_z (map Z.opp d) / n_of (map Z.opp d))) 0 = true).
    { apply Qeq_bool_iff. rewrite (deviations_ok _ _ (mean_of (map Z.opp d))); [apply (squares_zero _ Nd'); exact H'|]. unfold mean_of, n_of. rewrite qsum_ok. reflexivity. }
    rewrite Z1 in E. rewrite Z2 in E'. injection E as <-. injection E' as <-. reflexivity.
  - assert (H' : varying (map Z.opp d)).
    { destruct H as (x & y & Ix & Iy & D). exists (- x)%Z, (- y)%Z. split; [apply in_map; exact Ix|]. split; [apply in_map; exact Iy|lia]. }
    destruct (B H) as [B1 B2]. destruct (B' H') as [B1' B2']. rewrite Nn in B1', B2'.
    assert (Sq : n_of d * (mean_of (map Z.opp d) * mean_of (map Z.opp d)) == n_of d * (mean_of d * mean_of d)) by (rewrite Mo; ring).
    rewrite Sq, Vo in B1'. exists r, c, c'. split; [exact E|]. split.
    + rewrite E'. do 2 f_equal. rewrite Mo in C'.
      destruct C as [C|[[C P]|[C P]]], C' as [C'|[[C' P']|[C' P']]]; subst; try reflexivity; try (exfalso; lra);
        try (exfalso; assert (K : 0%Z <> 0%Z) by (tauto || (apply B1; apply B1'; discriminate) || (apply B1'; apply B1; discriminate)); congruence).
    + rewrite B2, B2'. rewrite (normprob_proper _ _ _ _ Sq Vo). reflexivity.
Qed.
