From Coq Require Import List Arith ZArith NArith Bool Permutation Sorted Lia.
From Verif Require Import Base Order_Model Order_Spec Order_Proofs1.
Import ListNotations.
Local Open Scope nat_scope.

Section Bubble.
Context {A : Type}.
Variables (exch : A -> A -> res bool) (gt : A -> A -> bool) (ok : A -> Prop).
Hypothesis exch_ok : forall x y, ok x -> ok y -> exch x y = Ok (gt x y).
Hypothesis gt_irr : forall x, ok x -> gt x x = false.
Hypothesis gt_asym : forall x y, ok x -> ok y -> gt x y = true -> gt y x = false.
Hypothesis gt_neg_trans : forall x y z, ok x -> ok y -> ok z -> gt x y = false -> gt y z = false -> gt x z = false.

Lemma get_mid (pre : list A) x suf : get (pre ++ x :: suf) (length pre) = Ok x.
Proof. unfold get. rewrite nth_error_app2, Nat.sub_diag by lia. reflexivity. Qed.
Lemma get_mid1 (pre : list A) x y suf : get (pre ++ x :: y :: suf) (length pre + 1) = Ok y.
Proof. unfold get. rewrite nth_error_app2 by lia. replace (length pre + 1 - length pre) with 1 by lia. reflexivity. Qed.
Lemma set_mid (pre : list A) x suf z : set (pre ++ x :: suf) (length pre) z = Ok (pre ++ z :: suf).
Proof. induction pre as [|a pre IH]; cbn; [reflexivity|]. rewrite IH. reflexivity. Qed.
Lemma set_mid1 (pre : list A) x y suf z : set (pre ++ x :: y :: suf) (length pre + 1) z = Ok (pre ++ x :: z :: suf).
Proof. rewrite Nat.add_1_r. induction pre as [|a pre IH]; cbn; [reflexivity|]. cbn in IH. rewrite IH. reflexivity. Qed.
Lemma cond_swap_ok pre x y suf : ok x -> ok y ->
  cond_swap exch (pre ++ x :: y :: suf) (length pre) = Ok (pre ++ (if gt x y then y :: x :: suf else x :: y :: suf)).
Proof.
  intros Hx Hy. unfold cond_swap. rewrite get_mid. cbn [rbind]. rewrite get_mid1. cbn [rbind]. rewrite (exch_ok x y Hx Hy). cbn [rbind].
  destruct (gt x y); [|reflexivity]. rewrite set_mid. cbn [rbind]. apply set_mid1.
Qed.
Fixpoint bub (k : nat) (x : A) (suf : list A) : list A :=
  match k, suf with
  | S k', y :: r => if gt x y then y :: bub k' x r else x :: bub k' y r
  | _, _ => x :: suf
  end.
Lemma inner_ok : forall k pre x suf, Forall ok (x :: suf) -> k <= length suf ->
  inner exch k (length pre) (pre ++ x :: suf) = Ok (pre ++ bub k x suf).
Proof.
  induction k as [|k IH]; intros pre x suf Ho Hk; [cbn; destruct suf; reflexivity|].
  destruct suf as [|y suf]; [cbn in Hk; lia|]. inversion Ho as [|? ? Hx Ho']; subst. inversion Ho' as [|? ? Hy Ho'']; subst.
  cbn [inner]. rewrite (cond_swap_ok pre x y suf Hx Hy). cbn [rbind bub]. cbn in Hk.
  destruct (gt x y).
  - replace (pre ++ y :: x :: suf) with ((pre ++ [y]) ++ x :: suf) by (rewrite <- app_assoc; reflexivity).
    replace (length pre + 1) with (length (pre ++ [y])) by (rewrite app_length; reflexivity).
    rewrite IH; [rewrite <- app_assoc; reflexivity|constructor; assumption|lia].
  - replace (pre ++ x :: y :: suf) with ((pre ++ [x]) ++ y :: suf) by (rewrite <- app_assoc; reflexivity).
    replace (length pre + 1) with (length (pre ++ [x])) by (rewrite app_length; reflexivity).
    rewrite IH; [rewrite <- app_assoc; reflexivity|constructor; assumption|lia].
Qed.
(** the front of the list with its greatest element moved to its end *)
Lemma bub_split : forall k x suf, Forall ok (x :: suf) -> k <= length suf ->
  exists front m, bub k x suf = front ++ m :: skipn k suf /\ length front = k /\
    Permutation (front ++ [m]) (x :: firstn k suf) /\ (forall y, In y front -> gt y m = false) /\
    (forall f, (forall a b, ok a -> ok b -> f a = true -> f b = true -> gt a b = false) ->
       filter f (bub k x suf) = filter f (x :: suf)).
Proof.
  induction k as [|k IH]; intros x suf Ho Hk.
  - exists [], x. split; [destruct suf; reflexivity|]. split; [reflexivity|]. split; [apply Permutation_refl|].
    split; [intros y []|]. intros f _. destruct suf; reflexivity.
  - destruct suf as [|y suf]; [cbn in Hk; lia|]. inversion Ho as [|? ? Hx Ho']; subst. inversion Ho' as [|? ? Hy Ho'']; subst.
    cbn in Hk. cbn [bub skipn firstn]. destruct (gt x y) eqn:G.
    + destruct (IH x suf) as (front & m & E & L & Pm & Mx & Fl); [constructor; assumption|lia|].
      exists (y :: front), m. rewrite E. split; [reflexivity|]. split; [cbn; lia|]. split.
      { cbn [app]. rewrite Pm. apply perm_swap. }
      assert (Hin : forall z, In z (front ++ [m]) -> ok z).
      { intros z Hz. apply (Permutation_in _ Pm) in Hz. destruct Hz as [<-|Hz]; [exact Hx|].
        rewrite Forall_forall in Ho''. apply Ho''. rewrite <- (firstn_skipn k suf). apply in_or_app. left. exact Hz. }
      assert (Hm : ok m) by (apply Hin, in_or_app; right; left; reflexivity).
      assert (Hxm : gt x m = false).
      { assert (Hi : In x (front ++ [m])) by (apply (Permutation_in _ (Permutation_sym Pm)); left; reflexivity).
        apply in_app_or in Hi. destruct Hi as [Hi|[->|[]]]; [apply Mx, Hi|apply gt_irr, Hx]. }
      split.
      * intros z [<-|Hz]; [|apply Mx, Hz]. apply (gt_neg_trans y x m); auto.
      * intros f Hf. cbn [app filter] in *. rewrite E in Fl. rewrite (Fl f Hf).
        destruct (f y) eqn:Fy, (f x) eqn:Fx; try reflexivity. rewrite (Hf x y Hx Hy Fx Fy) in G. discriminate.
    + destruct (IH y suf) as (front & m & E & L & Pm & Mx & Fl); [constructor; assumption|lia|].
      exists (x :: front), m. rewrite E. split; [reflexivity|]. split; [cbn; lia|]. split.
      { cbn [app]. rewrite Pm. apply Permutation_refl. }
      assert (Hin : forall z, In z (front ++ [m]) -> ok z).
      { intros z Hz. apply (Permutation_in _ Pm) in Hz. destruct Hz as [<-|Hz]; [exact Hy|].
        rewrite Forall_forall in Ho''. apply Ho''. rewrite <- (firstn_skipn k suf). apply in_or_app. left. exact Hz. }
      assert (Hm : ok m) by (apply Hin, in_or_app; right; left; reflexivity).
      assert (Hym : gt y m = false).
      { assert (Hi : In y (front ++ [m])) by (apply (Permutation_in _ (Permutation_sym Pm)); left; reflexivity).
        apply in_app_or in Hi. destruct Hi as [Hi|[->|[]]]; [apply Mx, Hi|apply gt_irr, Hy]. }
      split.
      * intros z [<-|Hz]; [|apply Mx, Hz]. apply (gt_neg_trans x y m); auto.
      * intros f Hf. cbn [app filter] in *. rewrite E in Fl. rewrite (Fl f Hf). reflexivity.
Qed.

Lemma outer_ok : forall j l done, length l = j -> Forall ok (l ++ done) ->
  (forall x y, In x l -> In y done -> gt x y = false) -> StronglySorted (fun x y => gt x y = false) done ->
  exists r, outer exch j (l ++ done) = Ok r /\ Permutation r (l ++ done) /\ StronglySorted (fun x y => gt x y = false) r /\
    (forall f, (forall a b, ok a -> ok b -> f a = true -> f b = true -> gt a b = false) -> filter f r = filter f (l ++ done)).
Proof.
  induction j as [|j IH]; intros l done Hl Ho Hc Hs.
  - destruct l; [|discriminate]. exists done. repeat split; auto.
  - destruct l as [|x l]; [discriminate|]. injection Hl as Hl. cbn [outer]. rewrite Nat.sub_succ, Nat.sub_0_r.
    change ((x :: l) ++ done) with ([] ++ x :: (l ++ done)). change 0 with (length (@nil A)).
    assert (Ho' : Forall ok (x :: l ++ done)) by exact Ho.
    rewrite (inner_ok j [] x (l ++ done) Ho') by (rewrite app_length; lia). cbn [rbind app].
    destruct (bub_split j x (l ++ done) Ho') as (front & m & E & L & Pm & Mx & Fl); [rewrite app_length; lia|].
    assert (Efn : firstn j (l ++ done) = l) by (rewrite <- Hl, firstn_app, Nat.sub_diag, firstn_all; cbn; apply app_nil_r).
    assert (Esk : skipn j (l ++ done) = done) by (rewrite <- Hl, skipn_app, Nat.sub_diag, skipn_all; reflexivity).
    rewrite Efn in Pm. rewrite Esk in E. rewrite E.
    assert (Pall : Permutation (front ++ m :: done) (x :: l ++ done)).
    { replace (front ++ m :: done) with ((front ++ [m]) ++ done) by (rewrite <- app_assoc; reflexivity).
      rewrite Pm. apply Permutation_refl. }
    destruct (IH front (m :: done) L) as (r & Er & Pr & Sr & Fr).
    + rewrite Forall_forall in *. intros z Hz. apply Ho'. apply (Permutation_in _ Pall). exact Hz.
    + intros a b Ha [<-|Hb]; [apply Mx, Ha|]. apply Hc; [|exact Hb].
      apply (Permutation_in _ Pm). apply in_or_app. left. exact Ha.
    + constructor; [exact Hs|]. rewrite Forall_forall. intros b Hb. apply Hc; [|exact Hb].
      apply (Permutation_in _ Pm). apply in_or_app. right. left. reflexivity.
    + exists r. split; [exact Er|]. split; [rewrite Pr; exact Pall|]. split; [exact Sr|].
      intros f Hf. rewrite (Fr f Hf), <- E. apply Fl. exact Hf.
Qed.
Lemma bubble_ok l : Forall ok l ->
  exists r, outer exch (length l) l = Ok r /\ Permutation r l /\ StronglySorted (fun x y => gt x y = false) r /\
    (forall f, (forall a b, ok a -> ok b -> f a = true -> f b = true -> gt a b = false) -> filter f r = filter f l).
Proof.
  intros Ho. destruct (outer_ok (length l) l [] eq_refl) as (r & H); rewrite ?app_nil_r in *.
  - exact Ho.
  - intros x y _ [].
  - constructor.
  - exists r. exact H.
Qed.
End Bubble.

(** strcmp *)
Lemma c_strcmp_anti s : forall t, c_strcmp t s = (- c_strcmp s t)%Z.
Proof.
  induction s as [|a s IH]; intros [|b t]; cbn; try reflexivity.
  destruct (N.eqb_spec a b) as [->|Hn]; [rewrite N.eqb_refl; apply IH|].
  destruct (N.eqb_spec b a); [congruence|]. destruct (N.ltb_spec a b), (N.ltb_spec b a); lia.
Qed.
Lemma c_strcmp_0 s : forall t, c_strcmp s t = 0%Z <-> s = t.
Proof.
  induction s as [|a s IH]; intros [|b t]; cbn; try (split; [lia|discriminate]); [tauto|].
  destruct (N.eqb_spec a b) as [->|Hn].
  - rewrite IH. split; [intros ->; reflexivity|intros E; injection E; auto].
  - split; [destruct (a <? b)%N; lia|intros E; injection E; congruence].
Qed.
Lemma c_strcmp_trans s : forall t u, (c_strcmp s t <= 0 -> c_strcmp t u <= 0 -> c_strcmp s u <= 0)%Z.
Proof.
  induction s as [|a s IH]; intros [|b t] [|c u]; cbn; try lia.
  destruct (N.eqb_spec a b) as [Eab|Nab].
  - subst b. destruct (N.eqb_spec a c); [apply IH|]. lia.
  - destruct (N.eqb_spec b c) as [Ebc|Nbc].
    + subst c. destruct (N.eqb_spec a b); [congruence|]. lia.
    + destruct (N.eqb_spec a c) as [Eac|Nac].
      * subst c. destruct (N.ltb_spec a b), (N.ltb_spec b a); lia.
      * destruct (N.ltb_spec a b), (N.ltb_spec b c), (N.ltb_spec a c); lia.
Qed.
