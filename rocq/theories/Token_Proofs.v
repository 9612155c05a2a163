From Coq Require Import List ZArith Arith Bool Ascii Lia FinFun.
From Verif Require Import Base Matrix_Model Matrix_Proofs Token_Model Token_Spec.
Import ListNotations.
Open Scope res_scope.

(** ** Edit scripts *)

Inductive script : nat -> text -> text -> Prop :=
| sc_nil : script 0 [] []
| sc_keep : forall k a s t, script k s t -> script k (a :: s) (a :: t)
| sc_sub : forall k a b s t, script k s t -> script (S k) (a :: s) (b :: t)
| sc_del : forall k a s t, script k s t -> script (S k) (a :: s) t
| sc_ins : forall k b s t, script k s t -> script (S k) s (b :: t).

Lemma script_refl : forall s, script 0 s s.
Proof. induction s; constructor; auto. Qed.

Lemma script_snoc_keep : forall k s t c, script k s t -> script k (s ++ [c]) (t ++ [c]).
Proof. intros k s t c H. induction H; simpl; constructor; auto. constructor. Qed.
Lemma script_snoc_sub : forall k s t c c', script k s t -> script (S k) (s ++ [c]) (t ++ [c']).
Proof. intros k s t c c' H. induction H; simpl; constructor; auto. constructor. Qed.
Lemma script_snoc_del : forall k s t c, script k s t -> script (S k) (s ++ [c]) t.
Proof. intros k s t c H. induction H; simpl; try (constructor; auto; fail). apply sc_del. constructor. Qed.
Lemma script_snoc_ins : forall k s t c, script k s t -> script (S k) s (t ++ [c]).
Proof. intros k s t c H. induction H; simpl; try (constructor; auto; fail). apply sc_ins. constructor. Qed.

Lemma script_rev : forall k s t, script k s t -> script k (rev s) (rev t).
Proof.
  intros k s t H. induction H; simpl.
  - constructor.
  - apply script_snoc_keep; auto.
  - apply script_snoc_sub; auto.
  - apply script_snoc_del; auto.
  - apply script_snoc_ins; auto.
Qed.

Lemma script_snoc_inv : forall k s t a b, script k (s ++ [a]) (t ++ [b]) ->
  (a = b /\ script k s t) \/
  (exists k', k = S k' /\ (script k' s t \/ script k' s (t ++ [b]) \/ script k' (s ++ [a]) t)).
Proof.
  intros k s t a b H. apply script_rev in H. rewrite !rev_app_distr in H. simpl in H.
  inversion H; subst.
  - left. split; [reflexivity|]. match goal with X : script _ _ _ |- _ => apply script_rev in X; rewrite !rev_involutive in X; exact X end.
  - right. exists k0. split; [reflexivity|]. left.
    match goal with X : script k0 _ _ |- _ => apply script_rev in X; rewrite !rev_involutive in X; exact X end.
  - right. exists k0. split; [reflexivity|]. right. left.
    match goal with X : script k0 _ _ |- _ => apply script_rev in X; simpl in X; rewrite !rev_involutive in X; exact X end.
  - right. exists k0. split; [reflexivity|]. right. right.
    match goal with X : script k0 _ _ |- _ => apply script_rev in X; simpl in X; rewrite !rev_involutive in X; exact X end.
Qed.

Lemma script_nil_l : forall k t, script k [] t -> k = length t.
Proof. intros k t H. remember [] as s. induction H; subst; try discriminate; simpl; auto. Qed.
Lemma script_nil_r : forall k s, script k s [] -> k = length s.
Proof. intros k s H. remember [] as t. induction H; subst; try discriminate; simpl; auto. Qed.
Lemma script_from_nil : forall t, script (length t) [] t.
Proof. induction t; simpl; constructor; auto. Qed.
Lemma script_to_nil : forall s, script (length s) s [].
Proof. induction s; simpl; constructor; auto. Qed.

(** Composition with one more edit. *)
Lemma one_edit_cons : forall c s t, one_edit s t -> one_edit (c :: s) (c :: t).
Proof.
  intros c s t H. destruct H.
  - apply (ed_insert (c :: a)).
  - apply (ed_delete (c :: a)).
  - apply (ed_replace (c :: a)).
Qed.
Lemma edits_cons : forall k c s t, edits k s t -> edits k (c :: s) (c :: t).
Proof.
  intros k c s t H. induction H; [constructor|]. econstructor; [apply one_edit_cons; eassumption|exact IHedits].
Qed.

Lemma script_edits : forall k s t, script k s t -> edits k s t.
Proof.
  intros k s t H. induction H.
  - constructor.
  - apply edits_cons. exact IHscript.
  - econstructor; [apply (ed_replace [] a b s)|]. simpl. apply edits_cons. exact IHscript.
  - econstructor; [apply (ed_delete [] a s)|]. exact IHscript.
  - econstructor; [apply (ed_insert [] b s)|]. apply edits_cons. exact IHscript.
Qed.

(** One edit in front of a script. *)
Lemma script_cons_del_inv : forall k c u t, script k (c :: u) t ->
  exists k', k' <= S k /\ script k' u t.
Proof.
  intros k c u t H. remember (c :: u) as cu. revert c u Heqcu.
  induction H; intros c0 u0 E; try discriminate.
  - injection E as -> ->. exists (S k). split; [lia|]. constructor. exact H.
  - injection E as -> ->. exists (S k). split; [lia|]. constructor. exact H.
  - injection E as -> ->. exists k. split; [lia|exact H].
  - destruct (IHscript c0 u0 E) as (k' & Hk & Hs). exists (S k'). split; [lia|]. constructor. exact Hs.
Qed.

Lemma script_cons_sub_inv : forall k c c' u t, script k (c :: u) t ->
  exists k', k' <= S k /\ script k' (c' :: u) t.
Proof.
  intros k c c' u t H. remember (c :: u) as cu. revert c u Heqcu.
  induction H; intros c0 u0 E; try discriminate.
  - injection E as -> ->. exists (S k). split; [lia|]. apply sc_sub. exact H.
  - injection E as -> ->. exists (S k). split; [lia|]. apply sc_sub. exact H.
  - injection E as -> ->. exists (S k). split; [lia|]. apply sc_del. exact H.
  - destruct (IHscript c0 u0 E) as (k' & Hk & Hs). exists (S k'). split; [lia|]. apply sc_ins. exact Hs.
Qed.

(** Replacing the head segment [a]: generic lifting through a common prefix. *)
Lemma script_prefix : forall (P : text) x y,
  (forall k t, script k x t -> exists k', k' <= S k /\ script k' y t) ->
  forall k t, script k (P ++ x) t -> exists k', k' <= S k /\ script k' (P ++ y) t.
Proof.
  induction P as [|p P IH]; intros x y HX k t H; simpl in *; [apply HX; exact H|].
  remember (p :: P ++ x) as px. revert Heqpx.
  induction H; intros E; try discriminate.
  - injection E as -> ->. destruct (IH x y HX _ _ H) as (k' & Hk & Hs). exists k'. split; [lia|]. apply sc_keep. exact Hs.
  - injection E as -> ->. destruct (IH x y HX _ _ H) as (k' & Hk & Hs). exists (S k'). split; [lia|]. apply sc_sub. exact Hs.
  - injection E as -> ->. destruct (IH x y HX _ _ H) as (k' & Hk & Hs). exists (S k'). split; [lia|]. apply sc_del. exact Hs.
  - destruct (IHscript E) as (k' & Hk & Hs). exists (S k'). split; [lia|]. apply sc_ins. exact Hs.
Qed.

Lemma one_edit_sym : forall s t, one_edit s t -> one_edit t s.
Proof. intros s t H. destruct H; constructor. Qed.

Lemma script_one_edit : forall s u k t, one_edit s u -> script k u t ->
  exists k', k' <= S k /\ script k' s t.
Proof.
  intros s u k t H. destruct H; intros Hs.
  - apply (script_prefix a (c :: b) b); [|exact Hs]. intros. eapply script_cons_del_inv; eassumption.
  - apply (script_prefix a b (c :: b)); [|exact Hs]. intros k0 t0 H0. exists (S k0). split; [lia|]. constructor. exact H0.
  - apply (script_prefix a (c' :: b) (c :: b)); [|exact Hs]. intros. eapply script_cons_sub_inv; eassumption.
Qed.

Lemma edits_script : forall k s t, edits k s t -> exists k', k' <= k /\ script k' s t.
Proof.
  intros k s t H. induction H.
  - exists 0. split; [lia|apply script_refl].
  - destruct IHedits as (k' & Hk & Hs). destruct (script_one_edit _ _ _ _ H Hs) as (k'' & Hk' & Hs').
    exists k''. split; [lia|exact Hs'].
Qed.

Definition min_script (s t : text) (k : nat) : Prop :=
  script k s t /\ forall k', script k' s t -> k <= k'.

Lemma min_script_edits : forall s t k, min_script s t k <-> min_edits s t k.
Proof.
  intros s t k. split; intros [H1 H2].
  - split; [apply script_edits; exact H1|]. intros k' H. apply edits_script in H.
    destruct H as (k'' & Hk & Hs). specialize (H2 _ Hs). lia.
  - apply edits_script in H1. destruct H1 as (k' & Hk & Hs).
    pose proof (H2 k' (script_edits _ _ _ Hs)). assert (k' = k) by lia. subst k'.
    split; [exact Hs|]. intros k2 Hk2. apply H2. apply script_edits. exact Hk2.
Qed.

(** ** The table *)
Lemma firstn_S_nth : forall A (l : list A) i a, nth_error l i = Some a ->
  firstn (S i) l = firstn i l ++ [a].
Proof.
  induction l as [|x l IH]; intros [|i] a H; simpl in *; try discriminate.
  - injection H as ->. reflexivity.
  - f_equal. apply IH. exact H.
Qed.

Lemma min_script_step : forall s t i j a b up lft diag,
  nth_error s i = Some a -> nth_error t j = Some b ->
  min_script (firstn (S i) s) (firstn j t) up ->
  min_script (firstn i s) (firstn (S j) t) lft ->
  min_script (firstn i s) (firstn j t) diag ->
  min_script (firstn (S i) s) (firstn (S j) t)
    (Nat.min (Nat.min (up + 1) (lft + 1)) (diag + (if Ascii.eqb a b then 0 else 1))).
Proof.
  intros s t i j a b up lft diag Ha Hb [Hu Hu'] [Hl Hl'] [Hd Hd'].
  rewrite (firstn_S_nth _ s i a Ha) in *. rewrite (firstn_S_nth _ t j b Hb) in *.
  split.
  - set (x := up + 1). set (y := lft + 1). set (z := diag + _).
    assert (Hx : script x (firstn i s ++ [a]) (firstn j t ++ [b])).
    { unfold x. rewrite Nat.add_1_r. apply script_snoc_ins. exact Hu. }
    assert (Hy : script y (firstn i s ++ [a]) (firstn j t ++ [b])).
    { unfold y. rewrite Nat.add_1_r. apply script_snoc_del. exact Hl. }
    assert (Hz : script z (firstn i s ++ [a]) (firstn j t ++ [b])).
    { unfold z. destruct (Ascii.eqb_spec a b) as [->|_].
      - rewrite Nat.add_0_r. apply script_snoc_keep. exact Hd.
      - rewrite Nat.add_1_r. apply script_snoc_sub. exact Hd. }
    destruct (Nat.min_dec x y) as [E|E]; rewrite E;
      match goal with |- script (Nat.min ?p z) _ _ => destruct (Nat.min_dec p z) as [E'|E'] end; rewrite E'; assumption.
  - intros k' H. apply script_snoc_inv in H. destruct H as [[E H]|(k0 & -> & [H|[H|H]])].
    + subst b. rewrite Ascii.eqb_refl. apply Hd' in H. lia.
    + apply Hd' in H. destruct (Ascii.eqb a b); lia.
    + apply Hl' in H. lia.
    + apply Hu' in H. lia.
Qed.

Lemma edit_distance_nonempty : forall s t, s <> [] -> t <> [] ->
  edit_distance s t =
  (let* d3 := ed_outer s t (S (length s)) (S (length t)) (seq 1 (S (length s) - 1))
     (set_all (set_all (repeat 0 (S (length t) * S (length s)))
                 (map (fun k => (k, k)) (seq 0 (S (length s)))))
        (map (fun k => (k * S (length s), k)) (seq 0 (S (length t))))) in
   match nth_error d3 (S (length s) * S (length t) - 1) with Some v => Ok v | None => Undef end).
Proof. intros [|a s] [|b t] H1 H2; try congruence. reflexivity. Qed.

Section Table.
Variables s t : text.
Let n := S (length s).
Let m := S (length t).

Definition cell_ok (d : list nat) (i j : nat) : Prop :=
  exists v, nth_error d (j * n + i) = Some v /\ min_script (firstn i s) (firstn j t) v.

(** The cells filled before the column [i] at row [j]. *)
Definition filled (d : list nat) (i j : nat) : Prop :=
  length d = m * n /\
  (forall i', i' < n -> cell_ok d i' 0) /\
  (forall j', j' < m -> cell_ok d 0 j') /\
  (forall i' j', i' < i -> j' < m -> cell_ok d i' j') /\
  (i < n -> forall j', j' < j -> j' < m -> cell_ok d i j').

Lemma index_inj : forall i j i' j', i < n -> i' < n -> j * n + i = j' * n + i' -> i = i' /\ j = j'.
Proof.
  intros i j i' j' Hi Hi' E.
  assert (j = j').
  { destruct (Nat.lt_trichotomy j j') as [H|[H|H]]; [|exact H|]; exfalso; nia. }
  subst. lia.
Qed.

Lemma cell_update_other : forall d i j v i' j', i < n -> i' < n -> (i <> i' \/ j <> j') ->
  cell_ok d i' j' -> cell_ok (update d (j * n + i) v) i' j'.
Proof.
  intros d i j v i' j' Hi Hi' Hne (w & Hw & Hm). exists w. split; [|exact Hm].
  rewrite nth_error_update_other; [exact Hw|]. intros E. apply index_inj in E; auto. destruct E. lia.
Qed.

Lemma ed_step_ok : forall d i j, 1 <= i -> i < n -> 1 <= j -> j < m -> filled d i j ->
  exists d', ed_step s t n j d i = Ok d' /\ filled d' i (S j).
Proof.
  intros d i j Hi1 Hi Hj1 Hj (Hlen & Hr & Hc & Hp & Hq).
  assert (Hia : exists a, nth_error s (i - 1) = Some a).
  { destruct (nth_error s (i - 1)) eqn:E; [eauto|]. apply nth_error_None in E. unfold n in Hi. lia. }
  assert (Hjb : exists b, nth_error t (j - 1) = Some b).
  { destruct (nth_error t (j - 1)) eqn:E; [eauto|]. apply nth_error_None in E. unfold m in Hj. lia. }
  destruct Hia as [a Ha]. destruct Hjb as [b Hb].
  assert (Hup : cell_ok d i (j - 1)).
  { destruct (Nat.eq_dec (j - 1) 0) as [->|]; [apply Hr; exact Hi|]. apply Hq; lia. }
  assert (Hlf : cell_ok d (i - 1) j).
  { destruct (Nat.eq_dec (i - 1) 0) as [->|]; [apply Hc; exact Hj|]. apply Hp; lia. }
  assert (Hdg : cell_ok d (i - 1) (j - 1)).
  { destruct (Nat.eq_dec (i - 1) 0) as [->|]; [apply Hc; lia|]. apply Hp; lia. }
  destruct Hup as (up & Eu & Mu). destruct Hlf as (lf & El & Ml). destruct Hdg as (dg & Ed & Md).
  unfold ed_step. rewrite Ha, Hb, Eu.
  rewrite <- (Nat.add_sub_assoc (j * n) i 1) by lia. rewrite El.
  rewrite <- (Nat.add_sub_assoc ((j - 1) * n) i 1) by lia. rewrite Ed. cbn zeta.
  assert (Hidx : j * n + i < length d) by (rewrite Hlen; nia).
  destruct (Nat.ltb_spec (j * n + i) (length d)); [|lia].
  eexists. split; [reflexivity|].
  set (v := Nat.min _ _).
  assert (Hv : min_script (firstn i s) (firstn j t) v).
  { destruct i as [|i]; [lia|]. destruct j as [|j]; [lia|]. simpl in Ha, Hb.
    rewrite Nat.sub_0_r in Ha, Hb. replace (S i - 1) with i in * by lia. replace (S j - 1) with j in * by lia.
    eapply min_script_step; eassumption. }
  split; [rewrite update_length; exact Hlen|]. split; [|split; [|split]].
  - intros i' Hi'. apply cell_update_other; auto. right. lia.
  - intros j' Hj'. apply cell_update_other; auto; [unfold n; lia|left; lia].
  - intros i' j' Hi' Hj'. apply cell_update_other; auto; [lia|left; lia].
  - intros _ j' Hj' Hj'm. destruct (Nat.eq_dec j' j) as [->|Hne].
    + exists v. split; [apply nth_error_update_same; exact Hidx|exact Hv].
    + apply cell_update_other; auto. apply Hq; lia.
Qed.

Lemma ed_inner_ok : forall len j d i, 1 <= i -> i < n -> 1 <= j -> j + len = m -> filled d i j ->
  exists d', ed_inner s t n i (seq j len) d = Ok d' /\ filled d' i m.
Proof.
  induction len as [|len IH]; intros j d i Hi1 Hi Hj E Hf; simpl.
  - exists d. split; [reflexivity|]. replace m with j by lia. exact Hf.
  - destruct (ed_step_ok d i j Hi1 Hi Hj ltac:(lia) Hf) as (d' & -> & Hf'). cbn [rbind].
    apply IH; auto; lia.
Qed.

Lemma ed_outer_ok : forall len i d, 1 <= i -> i + len = n -> filled d i 1 ->
  exists d', ed_outer s t n m (seq i len) d = Ok d' /\ filled d' n 1.
Proof.
  induction len as [|len IH]; intros i d Hi E Hf; cbn [seq ed_outer].
  - exists d. split; [reflexivity|]. replace n with i by lia. exact Hf.
  - destruct (ed_inner_ok (m - 1) 1 d i Hi ltac:(lia) (le_n 1) ltac:(unfold m; lia) Hf) as (d' & -> & Hf').
    cbn [rbind]. apply IH; auto; [lia|].
    destruct Hf' as (H1 & H2 & H3 & H4 & H5).
    split; [exact H1|]. split; [exact H2|]. split; [exact H3|]. split.
    + intros i' j' Hi' Hj'. destruct (Nat.eq_dec i' i) as [->|Hne]; [apply H5; auto; lia|apply H4; auto; lia].
    + intros HSi j' Hj' Hj''. assert (j' = 0) by lia. subst j'. apply H2. exact HSi.
Qed.

Lemma set_all_length : forall l d, length (set_all d l) = length d.
Proof. induction l as [|[i v] l IH]; intros d; simpl; [reflexivity|]. rewrite IH, update_length. reflexivity. Qed.

Lemma set_all_other : forall l d k, ~ In k (map fst l) -> nth_error (set_all d l) k = nth_error d k.
Proof.
  induction l as [|[i v] l IH]; intros d k H; simpl in *; [reflexivity|].
  rewrite IH by tauto. apply nth_error_update_other. intros E. apply H. left. congruence.
Qed.

Lemma set_all_in : forall l d k v, NoDup (map fst l) -> In (k, v) l -> k < length d ->
  nth_error (set_all d l) k = Some v.
Proof.
  induction l as [|[i w] l IH]; intros d k v Hnd Hin Hk; simpl in *; [destruct Hin|].
  inversion Hnd as [|? ? Hni Hnd']; subst. destruct Hin as [E|Hin].
  - injection E as -> ->. rewrite set_all_other by exact Hni. apply nth_error_update_same. exact Hk.
  - apply IH; auto. rewrite update_length. exact Hk.
Qed.

Lemma init_filled :
  filled (set_all (set_all (repeat 0 (m * n)) (map (fun k => (k, k)) (seq 0 n)))
     (map (fun k => (k * n, k)) (seq 0 m))) 1 1.
Proof.
  set (d0 := repeat 0 (m * n)).
  set (l1 := map (fun k => (k, k)) (seq 0 n)). set (l2 := map (fun k => (k * n, k)) (seq 0 m)).
  assert (Hlen : length (set_all (set_all d0 l1) l2) = m * n).
  { rewrite !set_all_length. apply repeat_length. }
  assert (N1 : NoDup (map fst l1)).
  { unfold l1. rewrite map_map. cbn [fst]. rewrite map_id. apply seq_NoDup. }
  assert (N2 : NoDup (map fst l2)).
  { unfold l2. rewrite map_map. cbn [fst]. apply FinFun.Injective_map_NoDup; [|apply seq_NoDup].
    intros x y H. unfold n in H. nia. }
  assert (Hcol : forall j', j' < m -> cell_ok (set_all (set_all d0 l1) l2) 0 j').
  { intros j' Hj'. exists j'. rewrite Nat.add_0_r. split.
    - apply set_all_in; auto; [unfold l2; apply in_map_iff; exists j'; split; [reflexivity|apply in_seq; lia]|].
      rewrite set_all_length. unfold d0. rewrite repeat_length. unfold n. nia.
    - simpl. assert (E : length (firstn j' t) = j') by (apply firstn_length_le; unfold m in Hj'; lia).
      split; [rewrite <- E at 1; apply script_from_nil|]. intros k' H. apply script_nil_l in H. lia. }
  assert (Hrow : forall i', i' < n -> cell_ok (set_all (set_all d0 l1) l2) i' 0).
  { intros i' Hi'. destruct (Nat.eq_dec i' 0) as [->|Hne]; [apply Hcol; unfold m; lia|].
    exists i'. split.
    - rewrite Nat.mul_0_l, Nat.add_0_l. rewrite set_all_other.
      + apply set_all_in; auto; [unfold l1; apply in_map_iff; exists i'; split; [reflexivity|apply in_seq; lia]|].
        unfold d0. rewrite repeat_length. unfold m. nia.
      + unfold l2. rewrite map_map. cbn [fst]. intros H. apply in_map_iff in H. destruct H as (x & E & _). destruct x as [|x]; [rewrite Nat.mul_0_l in E; congruence|rewrite Nat.mul_succ_l in E; lia].
    - simpl. assert (E : length (firstn i' s) = i') by (apply firstn_length_le; unfold n in Hi'; lia).
      split; [rewrite <- E at 1; apply script_to_nil|]. intros k' H. apply script_nil_r in H. lia. }
  split; [exact Hlen|]. split; [exact Hrow|]. split; [exact Hcol|]. split.
  - intros i' j' Hi' Hj'. assert (i' = 0) by lia. subst. apply Hcol. exact Hj'.
  - intros H1n j' Hj' _. assert (j' = 0) by lia. subst. apply Hrow. exact H1n.
Qed.

Lemma edit_distance_table : s <> [] -> t <> [] ->
  exists v, edit_distance s t = Ok v /\ min_script s t v.
Proof.
  intros Hs Ht.
  destruct (ed_outer_ok (n - 1) 1 _ (le_n 1) ltac:(unfold n; lia) init_filled) as (d & E & Hf).
  destruct Hf as (Hlen & _ & _ & Hall & _).
  destruct (Hall (length s) (length t)) as (v & Hv & Hm); [unfold n; lia|unfold m; lia|].
  rewrite !firstn_all in Hm.
  exists v. split; [|exact Hm].
  rewrite (edit_distance_nonempty s t Hs Ht). fold n m.
  rewrite E. cbn [rbind].
  replace (n * m - 1) with (length t * n + length s) by (unfold n, m; nia).
  rewrite Hv. reflexivity.
Qed.
End Table.

(** ** Finding substrings *)
Lemma is_prefix_spec : forall n h, is_prefix n h = true <-> begins_with h n.
Proof.
  unfold begins_with. induction n as [|a n IH]; intros h; simpl.
  - split; [intros _; exists h; reflexivity|reflexivity].
  - destruct h as [|b h].
    + split; [discriminate|]. intros (r & H). discriminate.
    + rewrite andb_true_iff, Ascii.eqb_eq, IH. split.
      * intros [-> (r & ->)]. exists r. reflexivity.
      * intros (r & H). injection H as -> ->. split; [reflexivity|]. exists r. reflexivity.
Qed.

Lemma find_at_ge : forall h n i j, find_at h n i = Some j -> i <= j.
Proof.
  induction h as [|x h IH]; intros n i j H; simpl in H.
  - destruct (is_prefix n []); [injection H as <-; lia|discriminate].
  - destruct (is_prefix n (x :: h)); [injection H as <-; lia|]. apply IH in H. lia.
Qed.

Lemma find_at_some : forall h n i, (exists j, find_at h n i = Some j) <-> contains h n.
Proof.
  unfold contains. induction h as [|x h IH]; intros n i; simpl.
  - destruct (is_prefix n []) eqn:E.
    + split; [|eauto]. intros _. apply is_prefix_spec in E. destruct E as [r E]. exists [], r. exact E.
    + split; [intros (j & H); discriminate|]. intros (a & b & H).
      destruct a as [|a0 a]; [|discriminate]. simpl in H.
      assert (is_prefix n [] = true) by (apply is_prefix_spec; exists b; exact H). congruence.
  - destruct (is_prefix n (x :: h)) eqn:E.
    + split; [|eauto]. intros _. apply is_prefix_spec in E. destruct E as [r E]. exists [], r. exact E.
    + rewrite IH. split.
      * intros (a & b & ->). exists (x :: a), b. reflexivity.
      * intros (a & b & H). destruct a as [|a0 a].
        -- simpl in H. assert (is_prefix n (x :: h) = true) by (apply is_prefix_spec; exists b; exact H). congruence.
        -- injection H as <- ->. exists a, b. reflexivity.
Qed.

Lemma found_anywhere_spec : forall h n, found_anywhere h n = true <-> contains h n.
Proof.
  intros h n. unfold found_anywhere, find. rewrite Nat.ltb_irrefl || idtac.
  destruct (Nat.ltb_spec (length h) 0); [lia|]. simpl. rewrite <- (find_at_some h n 0).
  destruct (find_at h n 0); split; eauto; try discriminate. intros (j & H'). discriminate.
Qed.

Lemma found_first_spec : forall h n, found_first h n = true <-> begins_with h n.
Proof.
  intros h n. unfold found_first, find. destruct (Nat.ltb_spec (length h) 0); [lia|]. simpl.
  rewrite <- is_prefix_spec. destruct h as [|x h]; simpl.
  - destruct (is_prefix n []); split; auto; discriminate.
  - destruct (is_prefix n (x :: h)) eqn:E; [split; auto|].
    destruct (find_at h n 1) as [j|] eqn:F; [|split; discriminate].
    apply find_at_ge in F. destruct j; [lia|]. split; discriminate.
Qed.

Lemma find_tail_spec : forall h n, find_tail h n = true <-> ends_with h n.
Proof.
  intros h n. unfold find_tail, ends_with.
  destruct (Nat.ltb_spec (length h) (length n)) as [H|H].
  - split; [discriminate|]. intros (r & ->). rewrite app_length in H. lia.
  - unfold find. destruct (Nat.ltb_spec (length h) (length h - length n)); [lia|].
    set (p := length h - length n).
    assert (E : (exists j, find_at (skipn p h) n p = Some j) <-> exists r, h = r ++ n).
    { rewrite find_at_some. unfold contains. split.
      - intros (a & b & Hab). exists (firstn p h).
        assert (Hl : length (skipn p h) = length n) by (rewrite skipn_length; unfold p; lia).
        rewrite Hab in Hl. rewrite !app_length in Hl.
        assert (a = []) by (destruct a; simpl in Hl; [reflexivity|lia]). subst a.
        assert (b = []) by (destruct b; simpl in Hl; [reflexivity|lia]). subst b.
        rewrite app_nil_r in Hab. simpl in Hab. rewrite <- Hab. symmetry. apply firstn_skipn.
      - intros (r & Hr). exists [], []. rewrite app_nil_r. simpl. subst h.
        unfold p. rewrite app_length. replace (length r + length n - length n) with (length r + 0) by lia.
        rewrite Nat.add_0_r. rewrite skipn_app, skipn_all, Nat.sub_diag. reflexivity. }
    destruct (find_at (skipn p h) n p); rewrite <- E; split; eauto; try discriminate.
    intros (j & Hj). discriminate.
Qed.
