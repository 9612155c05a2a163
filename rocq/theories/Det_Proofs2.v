From Coq Require Import List Arith ZArith QArith Bool Permutation Sorted Lia.
From Verif Require Import Base Order_Model Det_Model Det_Spec Det_Proofs.
From Verif Require Stats_Model Stats_Proofs.
Import ListNotations.
Local Open Scope res_scope.
Local Open Scope nat_scope.

Lemma sorted_nth : forall l i j, StronglySorted Qle l -> i <= j -> j < length l -> (nth i l 0 <= nth j l 0)%Q.
Proof.
  induction l as [|x l IH]; intros i j H Hij Hj; cbn [length] in Hj; [lia|].
  inversion H as [|? ? Hs Hf]; subst. destruct i as [|i], j as [|j]; cbn [nth]; try lia.
  - apply Qle_refl.
  - rewrite Forall_forall in Hf. apply Hf, nth_In. lia.
  - apply IH; [assumption|lia|lia].
Qed.
Lemma below_nth : forall l th i, StronglySorted Qle l -> i < length l ->
  (i < below th l <-> (nth i l 0 < th)%Q).
Proof.
  induction l as [|x l IH]; intros th i H Hi; cbn [length] in Hi; [lia|].
  inversion H as [|? ? Hs Hf]; subst. unfold below. cbn [filter].
  destruct (Qle_bool th x) eqn:E; cbn [negb].
  - apply Qle_bool_iff in E.
    assert (filter (fun v => negb (Qle_bool th v)) l = []) as ->.
    { apply Stats_Proofs.filter_none. eapply Forall_impl; [|exact Hf]. intros y Hy.
      apply negb_false_iff, Qle_bool_iff. eapply Qle_trans; eassumption. }
    cbn [length]. split; [lia|]. intros K. exfalso. eapply Qlt_not_le; [exact K|].
    destruct i as [|i]; cbn [nth]; [exact E|]. eapply Qle_trans; [exact E|].
    rewrite Forall_forall in Hf. apply Hf, nth_In. lia.
  - assert (x < th)%Q as K.
    { apply Qnot_le_lt. intros K. apply Qle_bool_iff in K. congruence. }
    cbn [length]. destruct i as [|i]; cbn [nth]; [split; [intros _; exact K|lia]|].
    rewrite <- IH by (assumption || lia). unfold below. lia.
Qed.
Lemma below_le : forall th l, below th l <= length l.
Proof. intros. apply Stats_Proofs.filter_len. Qed.
Lemma below_perm : forall th l l', Permutation l l' -> below th l = below th l'.
Proof. intros. apply Stats_Proofs.filter_perm. assumption. Qed.

Lemma cell_ok : forall v r i, i < length v -> cell (map Some v ++ r) i = Ok (nth i v 0%Q).
Proof.
  intros v r i H. unfold cell, get. rewrite nth_error_app1 by (rewrite map_length; exact H).
  rewrite (map_nth_error _ _ _ (nth_error_nth' v 0%Q H)). reflexivity.
Qed.
Lemma ssorted_app : forall A (R : A -> A -> Prop) l x, StronglySorted R l -> Forall (fun y => R y x) l ->
  StronglySorted R (l ++ [x]).
Proof.
  induction l as [|y l IH]; intros x H F; cbn [app].
  - constructor; [constructor|constructor].
  - inversion H; inversion F; subst. constructor; [apply IH; assumption|].
    apply Forall_app. split; [assumption|]. constructor; [assumption|constructor].
Qed.

Definition pt (nt nf : nat) (c : nat * nat) : point :=
  (Some (part (fst c) nt), Some (part (nf - snd c) nf)).

Section Walk.
Variables (s u : list Q).
Hypothesis Hs : StronglySorted Qle s.
Hypothesis Hu : StronglySorted Qle u.
Hypothesis Ms : Forall (fun v => v <= smax)%Q s.
Hypothesis Ls : 1 <= length s.
Hypothesis Lu : 1 <= length u.

Definition inv (a b : nat) : Prop :=
  a < length s /\ b < length u /\
  (forall i j, 1 <= i <= a -> b < j < length u -> (nth i s 0 <= nth j u 0)%Q) /\
  (forall i j, a < i < length s -> 1 <= j <= b -> (nth j u 0 < nth i s 0)%Q).
Definition good (cuts : list (nat * nat)) (a b : nat) : Prop :=
  length cuts = a + b /\
  (forall k a' b', nth_error cuts k = Some (a', b') -> a' + b' = k + 1) /\
  StronglySorted (fun c d => fst c <= fst d /\ snd c <= snd d) cuts /\
  Forall (fun c => inv (fst c) (snd c) /\ fst c <= a /\ snd c <= b) cuts.

Lemma good_snoc : forall cuts a b a' b', good cuts a b -> a <= a' -> b <= b' -> a' + b' = a + b + 1 ->
  inv a' b' -> good (cuts ++ [(a', b')]) a' b'.
Proof.
  intros cuts a b a' b' (G1 & G2 & G3 & G4) Ha Hb Hab I. repeat split.
  - rewrite app_length. cbn [length]. lia.
  - intros k x y H. destruct (Nat.lt_ge_cases k (length cuts)) as [K|K].
    + rewrite nth_error_app1 in H by exact K. eapply G2; eassumption.
    + rewrite nth_error_app2 in H by exact K.
      destruct (k - length cuts) as [|z] eqn:E; cbn [nth_error] in H; [|destruct z; discriminate H].
      inversion H; subst. lia.
  - apply ssorted_app; [exact G3|]. eapply Forall_impl; [|exact G4]. intros c (_ & H1 & H2). cbn [fst snd]. lia.
  - apply Forall_app. split.
    + eapply Forall_impl; [|exact G4]. intros c (H0 & H1 & H2). repeat split; try apply H0; lia.
    + constructor; [|constructor]. cbn [fst snd]. split; [exact I|]. lia.
Qed.

Lemma smax_nth : forall i, i < length s -> (nth i s 0 <= smax)%Q.
Proof. intros i H. rewrite Forall_forall in Ms. apply Ms, nth_In, H. Qed.

Lemma step_inv : forall a b, inv a b -> (a + 1 < length s \/ b + 1 < length u) ->
  let c := Qle_bool (nth (a + 1) (s ++ [smax]) 0%Q) (nth (b + 1) (u ++ [smax]) 0%Q) && (a + 1 <? length s) in
  if c : bool then inv (a + 1) b else inv a (b + 1).
Proof.
  intros a b (I1 & I2 & I3 & I4) H. cbv zeta.
  destruct (Nat.ltb_spec (a + 1) (length s)) as [K|K].
  - rewrite (app_nth1 s) by exact K. rewrite andb_true_r.
    destruct (Qle_bool (nth (a + 1) s 0%Q) (nth (b + 1) (u ++ [smax]) 0%Q)) eqn:E.
    + apply Qle_bool_iff in E. repeat split; [lia|lia| |].
      * intros i j Hi Hj. destruct (Nat.eq_dec i (a + 1)) as [->|N]; [|apply I3; lia].
        rewrite app_nth1 in E by lia. eapply Qle_trans; [exact E|]. apply sorted_nth; [assumption|lia|lia].
      * intros i j Hi Hj. apply I4; lia.
    + assert (nth (b + 1) (u ++ [smax]) 0 < nth (a + 1) s 0)%Q as L.
      { apply Qnot_le_lt. intros N. apply Qle_bool_iff in N. congruence. }
      assert (b + 1 < length u) as Hb.
      { destruct (Nat.lt_ge_cases (b + 1) (length u)) as [Hb|Hb]; [exact Hb|]. exfalso.
        rewrite app_nth2 in L by exact Hb. replace (b + 1 - length u) with 0 in L by lia. cbn [nth] in L.
        apply (Qlt_not_le _ _ L). apply smax_nth, K. }
      rewrite app_nth1 in L by exact Hb. repeat split; [lia|lia| |].
      * intros i j Hi Hj. apply I3; lia.
      * intros i j Hi Hj. destruct (Nat.eq_dec j (b + 1)) as [->|N]; [|apply I4; lia].
        eapply Qlt_le_trans; [exact L|]. apply sorted_nth; [assumption|lia|lia].
  - rewrite andb_false_r. repeat split; [lia|lia| |].
    + intros i j Hi Hj. apply I3; lia.
    + intros i j Hi Hj. lia.
Qed.

Lemma firstn_S_set : forall A (l : list A) n x, n < length l ->
  firstn (S n) (firstn n l ++ x :: skipn (S n) l) = firstn n l ++ [x].
Proof.
  intros A l n x H. rewrite firstn_app, firstn_firstn, firstn_length.
  replace (Nat.min (S n) n) with n by lia. replace (S n - Nat.min n (length l)) with 1 by lia. reflexivity.
Qed.

Lemma loop_ok : forall r r' fuel a b rows cuts,
  inv a b -> good cuts a b ->
  (length s - 1 - a) + (length u - 1 - b) <= fuel ->
  length rows = length s + length u ->
  firstn (a + b + 1) rows = first_point :: map (pt (length s) (length u)) cuts ->
  exists rows' cuts',
    roc_loop fuel (map Some (s ++ [smax]) ++ r) (map Some (u ++ [smax]) ++ r') (length s) (length u)
      (a + 1) (b + 1) (a + b) rows = Ok rows' /\
    firstn (length s + length u - 1) rows' = first_point :: map (pt (length s) (length u)) cuts' /\
    good cuts' (length s - 1) (length u - 1).
Proof.
  intros r r'. induction fuel as [|fuel IH]; intros a b rows cuts I G Hf Hr Hp.
  - assert (a = length s - 1 /\ b = length u - 1) as [Ha Hb] by (destruct I as (I1 & I2 & _); lia).
    cbn [roc_loop]. rewrite Ha, Hb in *.
    destruct (Nat.ltb_spec (length s - 1 + 1) (length s)); [lia|].
    destruct (Nat.ltb_spec (length u - 1 + 1) (length u)); [lia|]. cbn [orb].
    exists rows, cuts. split; [reflexivity|]. split; [|exact G]. rewrite <- Hp. f_equal. lia.
  - cbn [roc_loop].
    destruct ((a + 1 <? length s) || (b + 1 <? length u)) eqn:E.
    + assert (a + 1 < length s \/ b + 1 < length u) as K.
      { apply orb_prop in E. destruct E as [E|E]; apply Nat.ltb_lt in E; [left|right]; exact E. }
      pose proof (step_inv a b I K) as St. cbv zeta in St.
      destruct I as (I1 & I2 & I3 & I4).
      rewrite (cell_ok (s ++ [smax])), (cell_ok (u ++ [smax])) by (rewrite app_length; cbn [length]; lia).
      cbn [rbind].
      destruct (Qle_bool (nth (a + 1) (s ++ [smax]) 0%Q) (nth (b + 1) (u ++ [smax]) 0%Q) && (a + 1 <? length s)) eqn:C.
      * assert (a + 1 < length s) as Ha by (destruct St as (St1 & _); exact St1).
        rewrite set_ok by lia. cbn [rbind].
        replace (a + 1 + 1 - 1) with (a + 1) by lia. replace (b + 1 - 1) with b by lia.
        replace (a + b + 1) with (a + 1 + b) in * by lia.
        apply (IH (a + 1) b _ (cuts ++ [(a + 1, b)])).
        -- exact St.
        -- apply (good_snoc cuts a b); [exact G|lia|lia|lia|exact St].
        -- lia.
        -- rewrite app_length. cbn [length]. rewrite firstn_length, skipn_length. lia.
        -- replace (a + 1 + b + 1) with (S (a + 1 + b)) by lia. rewrite firstn_S_set by lia.
           rewrite Hp, map_app. cbn [map app]. do 4 f_equal. unfold pt. cbn [fst snd]. unfold frac, part.
           destruct (Nat.eqb_spec (length s) 0); [lia|]. destruct (Nat.eqb_spec (length u) 0); [lia|].
           do 3 f_equal. rewrite Nat2Z.inj_sub by lia. reflexivity.
      * assert (b + 1 < length u) as Hb by (destruct St as (_ & St1 & _); exact St1).
        rewrite set_ok by lia. cbn [rbind].
        replace (a + 1 - 1) with a by lia. replace (b + 1 + 1 - 1) with (b + 1) by lia.
        replace (a + b + 1) with (a + (b + 1)) in * by lia.
        apply (IH a (b + 1) _ (cuts ++ [(a, b + 1)])).
        -- exact St.
        -- apply (good_snoc cuts a b); [exact G|lia|lia|lia|exact St].
        -- lia.
        -- rewrite app_length. cbn [length]. rewrite firstn_length, skipn_length. lia.
        -- replace (a + (b + 1) + 1) with (S (a + (b + 1))) by lia. rewrite firstn_S_set by lia.
           rewrite Hp, map_app. cbn [map app]. do 4 f_equal. unfold pt. cbn [fst snd]. unfold frac, part.
           destruct (Nat.eqb_spec (length s) 0); [lia|]. destruct (Nat.eqb_spec (length u) 0); [lia|].
           do 3 f_equal. rewrite Nat2Z.inj_sub by lia. reflexivity.
    + apply orb_false_elim in E. destruct E as [E1 E2]. apply Nat.ltb_ge in E1. apply Nat.ltb_ge in E2.
      assert (a = length s - 1 /\ b = length u - 1) as [Ha Hb] by (destruct I as (I1 & I2 & _); lia).
      exists rows, cuts. split; [reflexivity|]. rewrite Ha, Hb in *. split; [|exact G]. rewrite <- Hp. f_equal. lia.
Qed.

(** ** Thresholds *)
Lemma split_at : forall (l : list Q) n, n < length l -> exists x, l = x :: firstn n (tl l) ++ skipn n (tl l).
Proof. intros [|x l] n H; cbn [length] in H; [lia|]. exists x. cbn [tl]. rewrite firstn_skipn. reflexivity. Qed.
Lemma in_firstn_tl : forall (l : list Q) n v, In v (firstn n (tl l)) -> exists i, 1 <= i <= n /\ i < length l /\ v = nth i l 0%Q.
Proof.
  intros [|x l] n v H; cbn [tl] in H; [rewrite firstn_nil in H; destruct H|].
  apply (In_nth _ _ 0%Q) in H. destruct H as (i & Hi & <-). rewrite firstn_length in Hi.
  exists (S i). split; [lia|]. split; [cbn [length]; lia|]. cbn [nth].
  rewrite <- (firstn_skipn n l) at 2. rewrite app_nth1 by (rewrite firstn_length; lia). reflexivity.
Qed.
Lemma in_skipn_tl : forall (l : list Q) n v, In v (skipn n (tl l)) -> exists i, n < i < length l /\ v = nth i l 0%Q.
Proof.
  intros [|x l] n v H; cbn [tl] in H; [rewrite skipn_nil in H; destruct H|].
  apply (In_nth _ _ 0%Q) in H. destruct H as (i & Hi & <-). rewrite skipn_length in Hi.
  exists (S (n + i)). split; [cbn [length]; lia|]. cbn [nth].
  destruct (Nat.le_gt_cases n (length l)) as [K|K]; [|lia].
  rewrite <- (firstn_skipn n l) at 2. rewrite app_nth2 by (rewrite firstn_length; lia).
  rewrite firstn_length. f_equal. lia.
Qed.

Lemma discards_of : forall l l' n th, StronglySorted Qle l -> Permutation l' l -> n < length l ->
  (forall i, 1 <= i <= n -> i < length l -> (nth i l 0 <= th)%Q) ->
  (forall i, n < i < length l -> (th <= nth i l 0)%Q) -> discards l' n th.
Proof.
  intros l l' n th S P H H1 H2. destruct (split_at l n H) as (x & E).
  exists x, (firstn n (tl l)), (skipn n (tl l)). split; [rewrite <- E; exact P|]. split; [|split; [|split]].
  - rewrite E in S. inversion S; assumption.
  - rewrite firstn_length. destruct l; cbn [tl length] in *; lia.
  - apply Forall_forall. intros v Hv. apply in_firstn_tl in Hv. destruct Hv as (i & ? & ? & ->). apply H1; assumption.
  - apply Forall_forall. intros v Hv. apply in_skipn_tl in Hv. destruct Hv as (i & ? & ->). apply H2; assumption.
Qed.

Lemma inv_threshold : forall a b, inv a b -> 1 <= a + b -> exists th,
  (forall i, 1 <= i <= a -> (nth i s 0 <= th)%Q) /\ (forall i, a < i < length s -> (th <= nth i s 0)%Q) /\
  (forall i, 1 <= i <= b -> (nth i u 0 <= th)%Q) /\ (forall i, b < i < length u -> (th <= nth i u 0)%Q).
Proof.
  intros a b (I1 & I2 & I3 & I4) H.
  assert (forall i, 1 <= i <= a -> (nth i s 0 <= nth a s 0)%Q) as Sa by (intros; apply sorted_nth; [assumption|lia|lia]).
  assert (forall i, a <= i < length s -> (nth a s 0 <= nth i s 0)%Q) as Sa' by (intros; apply sorted_nth; [assumption|lia|lia]).
  assert (forall i, 1 <= i <= b -> (nth i u 0 <= nth b u 0)%Q) as Sb by (intros; apply sorted_nth; [assumption|lia|lia]).
  assert (forall i, b <= i < length u -> (nth b u 0 <= nth i u 0)%Q) as Sb' by (intros; apply sorted_nth; [assumption|lia|lia]).
  destruct (Nat.eq_dec a 0) as [->|Na].
  { exists (nth b u 0%Q). split; [intros; lia|]. split; [intros; apply Qlt_le_weak, I4; lia|].
    split; [exact Sb|]. intros; apply Sb'; lia. }
  destruct (Nat.eq_dec b 0) as [->|Nb].
  { exists (nth a s 0%Q). split; [exact Sa|]. split; [intros; apply Sa'; lia|]. split; [intros; lia|].
    intros; apply I3; lia. }
  destruct (Qlt_le_dec (nth a s 0%Q) (nth b u 0%Q)) as [L|L].
  - exists (nth b u 0%Q). split; [intros i Hi; eapply Qle_trans; [apply Sa, Hi|apply Qlt_le_weak, L]|].
    split; [intros; apply Qlt_le_weak, I4; lia|]. split; [exact Sb|]. intros; apply Sb'; lia.
  - exists (nth a s 0%Q). split; [exact Sa|]. split; [intros; apply Sa'; lia|].
    split; [intros i Hi; eapply Qle_trans; [apply Sb, Hi|exact L]|]. intros; apply I3; lia.
Qed.

Lemma good_is_det : forall t f cuts, Permutation t s -> Permutation f u ->
  good cuts (length s - 1) (length u - 1) ->
  is_det t f (first_point :: map (pt (length s) (length u)) cuts).
Proof.
  intros t f cuts Pt Pf (G1 & G2 & G3 & G4). exists cuts.
  rewrite (Permutation_length Pt), (Permutation_length Pf). split; [reflexivity|].
  split; [lia|]. split; [exact G2|]. split; [exact G3|]. rewrite Forall_forall in G4. split.
  - intros a b Hin. destruct (G4 _ Hin) as (I & _). cbn [fst snd] in I.
    destruct (In_nth_error _ _ Hin) as (k & Hk). apply G2 in Hk.
    destruct (inv_threshold a b I) as (th & T1 & T2 & T3 & T4); [lia|].
    destruct I as (I1 & I2 & _). exists th. split.
    + apply (discards_of s); [assumption|assumption|assumption|intros; apply T1; assumption|exact T2].
    + apply (discards_of u); [assumption|assumption|assumption|intros; apply T3; assumption|exact T4].
  - intros th H1 H2 H3. rewrite (below_perm th _ _ Pt), (below_perm th _ _ Pf) in *.
    pose proof (below_le th s) as B1. pose proof (below_le th u) as B2.
    set (x := below th s) in *. set (y := below th u) in *.
    destruct (nth_error cuts (x + y - 3)) as [[a b]|] eqn:E.
    2: { apply nth_error_None in E. lia. }
    pose proof (G2 _ _ _ E) as Hab. apply nth_error_In in E. destruct (G4 _ E) as ((I1 & I2 & I3 & I4) & _).
    cbn [fst snd] in *.
    assert (a = x - 1) as Ha.
    { destruct (Nat.lt_trichotomy a (x - 1)) as [L|[L|L]]; [|exact L|]; exfalso.
      - assert (nth b u 0 < nth (a + 1) s 0)%Q as Q1 by (apply I4; lia).
        assert (nth (a + 1) s 0 < th)%Q as Q2 by (apply (below_nth s th); [assumption|lia|unfold x in *; lia]).
        assert (b < y) as Q3; [|lia]. apply (below_nth u th); [assumption|lia|]. eapply Qlt_trans; eassumption.
      - assert (nth a s 0 <= nth (b + 1) u 0)%Q as Q1 by (apply I3; lia).
        assert (nth (b + 1) u 0 < th)%Q as Q2 by (apply (below_nth u th); [assumption|lia|unfold y in *; lia]).
        assert (a < x) as Q3; [|lia]. apply (below_nth s th); [assumption|lia|]. eapply Qle_lt_trans; eassumption. }
    replace (y - 1) with b by lia. rewrite <- Ha. exact E.
Qed.
End Walk.
