(** The turning iterators visit every combination of choices but the first. *)
From Coq Require Import List ZArith Arith Bool String Lia.
From Verif Require Import Base Matrix_Model Graph_Model Graph_Spec Graph_Proofs1 Graph_Proofs2
  Graph_Proofs3 Graph_Proofs4 Ngraph_Model Ngraph_Spec.
Import ListNotations.
Open Scope res_scope.

(** ** Removing adjacent duplicates *)

Lemma unique_from_In : forall l x y, In y (unique_from x l) -> In y l.
Proof.
  induction l as [|z l IH]; intros x y H; simpl in *; [exact H|].
  destruct (Nat.eqb_spec x z) as [->|_]; [right; eapply IH; exact H|].
  destruct H as [->|H]; [now left|right; eapply IH; exact H].
Qed.

Lemma unique_from_keeps : forall l x y, In y l -> x = y \/ In y (unique_from x l).
Proof.
  induction l as [|z l IH]; intros x y H; simpl in *; [destruct H|].
  destruct (Nat.eqb_spec x z) as [->|_].
  - destruct H as [->|H]; [now left|apply IH; exact H].
  - right. destruct H as [->|H]; [now left|]. simpl. apply IH. exact H.
Qed.

Lemma unique_cons_In : forall x l y, In y (unique (x :: l)) <-> y = x \/ In y l.
Proof.
  intros x l y. simpl. split.
  - intros [->|H]; [now left|right; eapply unique_from_In; exact H].
  - intros [->|H]; [now left|]. destruct (unique_from_keeps l x y H) as [->|H']; auto.
Qed.

Lemma unique_cons_nth : forall x l i y, nth_error (unique (x :: l)) (S i) = Some y -> In y l.
Proof.
  intros x l i y H. simpl in H. apply nth_error_In in H. eapply unique_from_In. exact H.
Qed.

Lemma Forall2_len : forall A B (R : A -> B -> Prop) l1 l2, Forall2 R l1 l2 -> List.length l1 = List.length l2.
Proof. intros A B R l1 l2 H. induction H; simpl; congruence. Qed.

(** ** Positions as numbers *)

Definition dig (l p : nat) : nat := if Nat.eqb p l then 0 else S p.
Fixpoint num (lens pos : list nat) : nat :=
  match lens, pos with
  | l :: ls, p :: ps => dig l p + S l * num ls ps
  | _, _ => 0
  end.
Fixpoint prd (lens : list nat) : nat :=
  match lens with [] => 1 | l :: ls => S l * prd ls end.

Definition inpos (lens pos : list nat) : Prop := Forall2 (fun l p => 1 <= l /\ p <= l) lens pos.

Lemma dig_le : forall l p, p <= l -> dig l p <= l.
Proof. intros l p H. unfold dig. destruct (Nat.eqb_spec p l); lia. Qed.

Lemma dig_inj : forall l p q, p <= l -> q <= l -> dig l p = dig l q -> p = q.
Proof.
  intros l p q Hp Hq H. unfold dig in H. destruct (Nat.eqb_spec p l), (Nat.eqb_spec q l); lia.
Qed.

Lemma prd_pos : forall lens, 1 <= prd lens.
Proof. induction lens as [|l ls IH]; simpl; [lia|]. nia. Qed.

Lemma num_lt : forall lens pos, inpos lens pos -> num lens pos < prd lens.
Proof.
  intros lens pos H. induction H as [|l p ls ps [H1 H2] H IH]; [simpl; lia|].
  cbn [num prd]. pose proof (dig_le l p H2). nia.
Qed.

Lemma num_inj : forall lens pos q, inpos lens pos -> inpos lens q -> num lens pos = num lens q -> pos = q.
Proof.
  intros lens pos q H. revert q. induction H as [|l p ls ps [H1 H2] H IH]; intros q Hq E.
  - inversion Hq. reflexivity.
  - inversion Hq as [|? r ? rs [_ Hr] Hrs]; subst. cbn [num] in E.
    pose proof (dig_le l p H2) as A. pose proof (dig_le l r Hr) as B.
    set (k := num ls ps) in *. set (k' := num ls rs) in *.
    assert (k = k' /\ dig l p = dig l r) as [Ek Ed].
    { destruct (Nat.lt_trichotomy k k') as [L|[->|L]]; [nia|split; [reflexivity|lia]|nia]. }
    f_equal; [eapply dig_inj; eassumption|]. apply IH; assumption.
Qed.

Lemma tick_ok : forall lens pos, inpos lens pos ->
  exists pos', tick true lens pos = Ok pos' /\ inpos lens pos' /\
    ((S (num lens pos) < prd lens /\ num lens pos' = S (num lens pos)) \/
     (S (num lens pos) = prd lens /\ num lens pos' = 0)).
Proof.
  intros lens pos H. induction H as [|l p ls ps [H1 H2] H IH].
  - exists []. simpl. split; [reflexivity|]. split; [constructor|]. right. auto.
  - cbn [tick]. destruct (Nat.eqb_spec p l) as [->|Hne]; cbn [rbind].
    + destruct (Nat.eqb_spec 0 l); [lia|]. exists (0 :: ps). split; [reflexivity|].
      split; [constructor; [lia|exact H]|]. left. cbn [num prd].
      pose proof (num_lt ls ps H). unfold dig. rewrite Nat.eqb_refl.
      destruct (Nat.eqb_spec 0 l); [lia|]. nia.
    + destruct (Nat.eqb_spec (S p) l) as [Hl|Hl].
      * destruct IH as (ps' & -> & Hin & Hn). cbn [rbind]. exists (S p :: ps').
        split; [reflexivity|]. split; [constructor; [lia|exact Hin]|].
        cbn [num prd]. unfold dig. destruct (Nat.eqb_spec p l); [lia|].
        destruct (Nat.eqb_spec (S p) l); [|lia].
        destruct Hn as [[Ha Hb]|[Ha Hb]]; rewrite Hb; [left|right]; nia.
      * exists (S p :: ps). split; [reflexivity|]. split; [constructor; [lia|exact H]|].
        left. cbn [num prd]. unfold dig.
        destruct (Nat.eqb_spec p l); [lia|]. destruct (Nat.eqb_spec (S p) l); [lia|].
        pose proof (num_lt ls ps H). nia.
Qed.

Lemma last_end_num : forall lens pos, inpos lens pos -> lens <> [] ->
  (last_at_end lens pos = true <-> num lens pos < prd (removelast lens)).
Proof.
  intros lens pos H. induction H as [|l p ls ps [H1 H2] H IH]; intros Hne; [congruence|].
  destruct ls as [|l2 ls].
  - inversion H; subst. cbn [last_at_end num prd removelast]. unfold dig.
    destruct (Nat.eqb_spec p l); split; intros; try reflexivity; try discriminate; lia.
  - inversion H as [|? p2 ? ps2 Hp2 Hps]; subst.
    change (last_at_end (l :: l2 :: ls) (p :: p2 :: ps2)) with (last_at_end (l2 :: ls) (p2 :: ps2)).
    rewrite IH by discriminate.
    change (removelast (l :: l2 :: ls)) with (l :: removelast (l2 :: ls)).
    cbn [prd]. set (r := removelast (l2 :: ls)).
    change (num (l :: l2 :: ls) (p :: p2 :: ps2)) with (dig l p + S l * num (l2 :: ls) (p2 :: ps2)).
    pose proof (dig_le l p H2). nia.
Qed.

Lemma prd_last : forall lens, lens <> [] -> prd (removelast lens) <= prd lens.
Proof.
  induction lens as [|l ls IH]; intros H; [congruence|].
  destruct ls as [|l2 ls]; [simpl; nia|].
  change (removelast (l :: l2 :: ls)) with (l :: removelast (l2 :: ls)).
  assert (E : prd (removelast (l2 :: ls)) <= prd (l2 :: ls)) by (apply IH; discriminate).
  change (prd (l :: removelast (l2 :: ls))) with (S l * prd (removelast (l2 :: ls))).
  change (prd (l :: l2 :: ls)) with (S l * prd (l2 :: ls)). nia.
Qed.

Definition lens_of (lists : list (list nat)) : list nat := map (@List.length nat) lists.

(** From a position whose last iterator is inside its list, all later positions are visited. *)
Lemma odometer_ok : forall lists, lists <> [] ->
  forall fuel pos acc, inpos (lens_of lists) pos ->
  prd (removelast (lens_of lists)) <= num (lens_of lists) pos ->
  prd (lens_of lists) < fuel + num (lens_of lists) pos ->
  exists acc', odometer true fuel lists pos acc = Ok acc' /\
    forall c, In c acc' <-> In c acc \/
      exists q, inpos (lens_of lists) q /\ num (lens_of lists) pos < num (lens_of lists) q /\
        pick lists q = Some c.
Proof.
  intros lists Hne. assert (Hl : lens_of lists <> []) by (destruct lists; [congruence|discriminate]).
  induction fuel as [|fuel IH]; intros pos acc Hin Hge Hf.
  - pose proof (num_lt _ _ Hin). lia.
  - cbn [odometer]. fold (lens_of lists).
    assert (El : last_at_end (lens_of lists) pos = false).
    { destruct (last_at_end (lens_of lists) pos) eqn:E; [|reflexivity].
      apply (last_end_num _ _ Hin Hl) in E. lia. }
    rewrite El. destruct (tick_ok _ _ Hin) as (pos' & -> & Hin' & [[Hlt Hn]|[Heq Hn]]); cbn [rbind].
    + assert (El' : last_at_end (lens_of lists) pos' = false).
      { destruct (last_at_end (lens_of lists) pos') eqn:E; [|reflexivity].
        apply (last_end_num _ _ Hin' Hl) in E. lia. }
      rewrite El'. cbv zeta.
      destruct (IH pos' (match pick lists pos' with Some c => c :: acc | None => acc end) Hin')
        as (acc' & -> & HI); [lia|lia|].
      exists acc'. split; [reflexivity|]. intros c. rewrite HI. split.
      * intros [H|(q & Hq & Hlt' & Hp)]; [|right; exists q; split; [exact Hq|]; split; [lia|exact Hp]].
        destruct (pick lists pos') as [c'|] eqn:Ep; [|now left].
        destruct H as [<-|H]; [|now left]. right. exists pos'. split; [exact Hin'|]. split; [lia|exact Ep].
      * intros [H|(q & Hq & Hlt' & Hp)].
        -- left. destruct (pick lists pos'); [now right|exact H].
        -- destruct (Nat.eq_dec (num (lens_of lists) q) (num (lens_of lists) pos')) as [E|E].
           ++ apply (num_inj _ _ _ Hq Hin') in E. subst q. left. rewrite Hp. now left.
           ++ right. exists q. split; [exact Hq|]. split; [lia|exact Hp].
    + assert (El' : last_at_end (lens_of lists) pos' = true).
      { apply (last_end_num _ _ Hin' Hl). rewrite Hn. pose proof (prd_pos (removelast (lens_of lists))). lia. }
      rewrite El'. exists acc. split.
      * destruct fuel as [|fuel']; [pose proof (num_lt _ _ Hin); lia|]. cbn [odometer].
        fold (lens_of lists). rewrite El'. reflexivity.
      * intros c. split; [now left|]. intros [H|(q & Hq & Hlt & _)]; [exact H|].
        pose proof (num_lt _ _ Hq). lia.
Qed.

Lemma pick_spec : forall lists pos c, inpos (lens_of lists) pos ->
  (pick lists pos = Some c <->
   List.length c = List.length lists /\
   forall i l p, nth_error lists i = Some l -> nth_error pos i = Some p ->
     exists x, nth_error l p = Some x /\ nth_error c i = Some x).
Proof.
  induction lists as [|l ls IH]; intros pos c Hin; inversion Hin as [|? p ? ps Hp Hps]; subst.
  - simpl. split.
    + intros E. injection E as <-. split; [reflexivity|]. intros [|i]; discriminate.
    + intros [E _]. destruct c; [reflexivity|discriminate].
  - cbn [pick]. split.
    + destruct (nth_error l p) as [x|] eqn:Ex; [|discriminate].
      destruct (pick ls ps) as [r|] eqn:Er; [|discriminate].
      intros E. injection E as <-. apply (IH ps r Hps) in Er. destruct Er as [E1 E2].
      split; [simpl; congruence|]. intros [|i] l' p' Hl' Hp'; simpl in Hl', Hp'.
      * injection Hl' as <-. injection Hp' as <-. exists x. auto.
      * simpl. apply (E2 i l' p'); assumption.
    + intros [E1 E2]. destruct c as [|x c]; [discriminate|].
      destruct (E2 0 l p eq_refl eq_refl) as (x' & Hx & Hx'). simpl in Hx'. injection Hx' as <-.
      rewrite Hx. replace (pick ls ps) with (Some c); [reflexivity|].
      symmetry. apply (IH ps c Hps). split; [simpl in E1; congruence|].
      intros i l' p' Hl' Hp'. apply (E2 (S i) l' p'); assumption.
Qed.

Lemma num_start : forall lens, Forall (fun l => 1 <= l) lens ->
  inpos lens (map (fun _ => 0) lens) /\
  (lens <> [] -> prd (removelast lens) <= num lens (map (fun _ => 0) lens)) /\
  forall q, inpos lens q -> Forall2 (fun l p => p < l) lens q ->
    q <> map (fun _ => 0) lens -> num lens (map (fun _ => 0) lens) < num lens q.
Proof.
  intros lens H. induction H as [|l ls Hl H IH].
  - split; [constructor|]. split; [congruence|]. intros q Hq _ Hn. inversion Hq; subst. destruct Hn. reflexivity.
  - destruct IH as (I1 & I2 & I3). split; [constructor; [lia|exact I1]|]. cbn [map num].
    assert (Hd0 : dig l 0 = 1) by (unfold dig; destruct (Nat.eqb_spec 0 l); lia).
    rewrite Hd0. split.
    + intros _. destruct ls as [|l2 ls]; [simpl; lia|].
      change (removelast (l :: l2 :: ls)) with (l :: removelast (l2 :: ls)).
      assert (E : prd (removelast (l2 :: ls)) <= num (l2 :: ls) (map (fun _ => 0) (l2 :: ls)))
        by (apply I2; discriminate).
      change (prd (l :: removelast (l2 :: ls))) with (S l * prd (removelast (l2 :: ls))).
      nia.
    + intros q Hq Hlt Hne. inversion Hq as [|? p ? ps Hp Hps]; subst.
      inversion Hlt as [|? ? ? ? Hpl Hlts]; subst. cbn [num].
      assert (Hd : dig l p = S p) by (unfold dig; destruct (Nat.eqb_spec p l); lia). rewrite Hd.
      destruct (list_eq_dec Nat.eq_dec ps (map (fun _ => 0) ls)) as [->|Hps'].
      * assert (p <> 0) by (intros ->; apply Hne; reflexivity). lia.
      * specialize (I3 ps Hps Hlts Hps'). nia.
Qed.

(** ** Steps of the n-way graph *)

Section WF.
Variable g : graph.
Hypothesis Hwf : wf_nway g.
Let e := g_env g.

Definition move (d : dimension) (k x : nat) : Prop := x = k \/ pidx e d k x.

Definition nstep (c p : list nat) : Prop :=
  p <> c /\ List.length p = List.length c /\
  forall i d k x, nth_error (g_dims g) i = Some d -> nth_error c i = Some k ->
    nth_error p i = Some x -> move d k x.

Lemma nwf_d : forall i d, nth_error (g_dims g) i = Some d -> wf_dim e d.
Proof. intros i d H. apply Hwf. eapply nth_error_In. exact H. Qed.

Lemma choices_ok : forall d k, wf_dim e d -> k <= List.length (d_toks d) ->
  exists l, choices_of e d k = Ok l /\ nth_error l 0 = Some k /\
    (forall x, In x l <-> move d k x) /\
    (forall i x, nth_error l (S i) = Some x -> pidx e d k x).
Proof.
  intros d k Hd Hk. unfold choices_of, move. destruct k as [|k].
  - exists [0]. split; [reflexivity|]. split; [reflexivity|]. split.
    + intros x. split; [intros [<-|[]]; now left|]. intros [->|(t & H & _)]; [now left|discriminate].
    + intros [|i] x H; discriminate.
  - destruct (tokd_Some d (S k) Hk) as (t & Ht & _); [lia|].
    destruct (previous_indexes_spec e d (S k) t Hd Ht) as (l & -> & _ & Hl). cbn [rbind].
    assert (Hp : forall x, In x l <-> pidx e d (S k) x).
    { intros x. rewrite Hl. unfold pidx. split.
      - intros H. exists t. auto.
      - intros (t' & Ht' & H). rewrite Ht in Ht'. injection Ht' as <-. exact H. }
    exists (unique (S k :: l)). split; [reflexivity|]. split; [reflexivity|]. split.
    + intros x. rewrite unique_cons_In, Hp. reflexivity.
    + intros i x H. apply unique_cons_nth in H. apply Hp. exact H.
Qed.

Lemma all_choices_ok : forall ds c, (forall d, In d ds -> wf_dim e d) ->
  Forall2 (fun d k => k <= List.length (d_toks d)) ds c ->
  exists lists, all_choices e ds c = Ok lists /\ List.length lists = List.length ds /\
    forall i d k, nth_error ds i = Some d -> nth_error c i = Some k ->
      exists l, nth_error lists i = Some l /\ nth_error l 0 = Some k /\
        (forall x, In x l <-> move d k x) /\
        (forall j x, nth_error l (S j) = Some x -> pidx e d k x).
Proof.
  intros ds c Hw H. induction H as [|d k ds c Hk H IH].
  - exists []. split; [reflexivity|]. split; [reflexivity|]. intros [|i]; discriminate.
  - destruct IH as (ls & E & Hlen & HI); [intros d' Hd'; apply Hw; now right|].
    destruct (choices_ok d k) as (l & El & H0 & H1 & H2); [apply Hw; now left|exact Hk|].
    cbn [all_choices]. rewrite El. cbn [rbind]. rewrite E. cbn [rbind].
    exists (l :: ls). split; [reflexivity|]. split; [simpl; congruence|].
    intros [|i] d' k' Hd' Hk'; simpl in Hd', Hk'.
    + injection Hd' as <-. injection Hk' as <-. exists l. auto.
    + apply (HI i); assumption.
Qed.

Lemma pidx_lt_rank : forall i d k x, nth_error (g_dims g) i = Some d -> pidx e d k x -> x <> k.
Proof.
  intros i d k x Hd (t & Ht & H) E. subst x.
  destruct Hwf as (_ & (rank & Hr) & _).
  destruct H as [[_ ->]|(p & Hpp & Hpi & ->)]; [discriminate|].
  destruct (tokd_index d p Hpi) as (_ & _ & Hx). rewrite Hx in Ht. injection Ht as ->.
  assert (rank t < rank t); [|lia]. apply (Hr d); auto. eapply nth_error_In; exact Hd.
Qed.

Lemma turns_prd : forall lists,
  fold_right (fun (l : list nat) n => S (List.length l) * n) 1 lists = prd (lens_of lists).
Proof.
  unfold lens_of. induction lists as [|l ls IH]; [reflexivity|].
  cbn [fold_right map prd]. rewrite IH. reflexivity.
Qed.

Lemma previous_generic_ok : forall c, valid g c ->
  exists l, previous_generic true g c = Ok l /\
    forall p, In p l <-> is_ending c = false /\ nstep c p.
Proof.
  intros c Hv. unfold previous_generic. destruct (is_ending c) eqn:He.
  { exists []. split; [reflexivity|]. intros p. split; [intros []|intros [H _]; discriminate]. }
  fold e. destruct (all_choices_ok (g_dims g) c) as (lists & -> & Hlen & Hl).
  { apply Hwf. } { exact Hv. }
  cbn [rbind]. cbv zeta. rewrite turns_prd.
  assert (Hlc : List.length c = List.length (g_dims g)) by (apply valid_length; exact Hv).
  assert (Hne : lists <> []).
  { intros ->. simpl in Hlen. destruct c; [discriminate He|]. simpl in Hlc. lia. }
  assert (Hnl : lens_of lists <> []) by (destruct lists; [congruence|discriminate]).
  assert (Hget : forall i l, nth_error lists i = Some l -> exists d k,
     nth_error (g_dims g) i = Some d /\ nth_error c i = Some k /\ nth_error l 0 = Some k /\
     (forall x, In x l <-> move d k x) /\ (forall j x, nth_error l (S j) = Some x -> pidx e d k x)).
  { intros i l Hi. assert (Hi' : i < List.length (g_dims g)) by (rewrite <- Hlen; apply nth_error_Some; congruence).
    destruct (nth_error (g_dims g) i) as [d|] eqn:Hd; [|apply nth_error_None in Hd; lia].
    destruct (nth_error c i) as [k|] eqn:Hk; [|apply nth_error_None in Hk; lia].
    destruct (Hl i d k Hd Hk) as (l' & Hl' & H0 & H1 & H2). rewrite Hi in Hl'. injection Hl' as <-.
    exists d, k. auto. }
  assert (Hpos : Forall (fun l => 1 <= l) (lens_of lists)).
  { apply Forall_forall. intros n Hn. unfold lens_of in Hn. apply in_map_iff in Hn.
    destruct Hn as (l & <- & Hin). apply In_nth_error in Hin. destruct Hin as [i Hi].
    destruct (Hget i l Hi) as (d & k & _ & _ & H0 & _). destruct l; [discriminate|simpl; lia]. }
  destruct (num_start (lens_of lists) Hpos) as (S1 & S2 & S3).
  assert (Emap : map (fun _ : list nat => 0) lists = map (fun _ => 0) (lens_of lists)).
  { unfold lens_of. rewrite map_map. reflexivity. }
  rewrite Emap.
  destruct (odometer_ok lists Hne (S (prd (lens_of lists))) _ [] S1 (S2 Hnl)) as (l & -> & HI); [lia|].
  exists l. split; [reflexivity|]. intros p. rewrite HI. split.
  - intros [[]|(q & Hq & Hlt & Hp)]. split; [reflexivity|].
    apply (pick_spec lists q p Hq) in Hp. destruct Hp as [Hpl Hpn].
    assert (Hql : List.length q = List.length lists).
    { pose proof (Forall2_len _ _ _ _ _ Hq) as Hq'. unfold lens_of in Hq'. rewrite map_length in Hq'. congruence. }
    assert (Hmv : forall i d k x, nth_error (g_dims g) i = Some d -> nth_error c i = Some k ->
      nth_error p i = Some x -> exists j, nth_error q i = Some j /\
        ((j = 0 /\ x = k) \/ (j <> 0 /\ pidx e d k x))).
    { intros i d k x Hd Hk Hx. destruct (Hl i d k Hd Hk) as (li & Hli & H0 & H1 & H2).
      destruct (nth_error q i) as [j|] eqn:Hj.
      - exists j. split; [reflexivity|]. destruct (Hpn i li j Hli Hj) as (x' & Hx1 & Hx2).
        rewrite Hx in Hx2. injection Hx2 as <-. destruct j as [|j].
        + left. rewrite H0 in Hx1. injection Hx1 as ->. auto.
        + right. split; [lia|]. apply (H2 j). exact Hx1.
      - apply nth_error_None in Hj. assert (i < List.length (g_dims g)) by (apply nth_error_Some; congruence). lia. }
    split; [|split].
    + intros ->. assert (Eq : q = map (fun _ => 0) (lens_of lists)).
      { apply nth_error_ext. intros i.
        destruct (nth_error (g_dims g) i) as [d|] eqn:Hd.
        - destruct (nth_error c i) as [k|] eqn:Hk.
          + destruct (Hmv i d k k Hd Hk Hk) as (j & Hj & [[-> _]|[_ Hpi]]).
            * rewrite Hj. unfold lens_of. rewrite map_map, nth_error_map.
              destruct (Hl i d k Hd Hk) as (li & -> & _). reflexivity.
            * exfalso. eapply pidx_lt_rank; [exact Hd|exact Hpi|reflexivity].
          + apply nth_error_None in Hk. assert (i < List.length (g_dims g)) by (apply nth_error_Some; congruence). lia.
        - apply nth_error_None in Hd.
          assert (nth_error q i = None) as -> by (apply nth_error_None; lia).
          symmetry. apply nth_error_None. unfold lens_of. rewrite !map_length. lia. }
      subst q. lia.
    + congruence.
    + intros i d k x Hd Hk Hx. destruct (Hmv i d k x Hd Hk Hx) as (j & _ & [[_ ->]|[_ H]]); [now left|now right].
  - intros [_ (Hpne & Hpl & Hmv)]. right.
    assert (G : forall (ls : list (list nat)) (ps : list nat), List.length ls = List.length ps ->
      (forall i l x, nth_error ls i = Some l -> nth_error ps i = Some x -> In x l) ->
      exists q, inpos (lens_of ls) q /\ Forall2 (fun l p => p < l) (lens_of ls) q /\ pick ls q = Some ps).
    { induction ls as [|l0 ls IH]; intros ps Hlp Hin.
      - destruct ps; [|discriminate]. exists []. split; [constructor|]. split; [constructor|reflexivity].
      - destruct ps as [|x ps]; [discriminate|].
        destruct (IH ps) as (q & Hq1 & Hq2 & Hq3); [simpl in Hlp; congruence| |].
        { intros i l1 y Hi Hy. apply (Hin (S i) l1 y); assumption. }
        pose proof (Hin 0 l0 x eq_refl eq_refl) as Hx. apply In_nth_error in Hx. destruct Hx as [j Hj].
        assert (Hjl : j < List.length l0) by (apply nth_error_Some; congruence).
        exists (j :: q). split; [constructor; [lia|exact Hq1]|]. split; [constructor; [exact Hjl|exact Hq2]|].
        cbn [pick]. rewrite Hj, Hq3. reflexivity. }
    destruct (G lists p) as (q & Hq1 & Hq2 & Hq3).
    { congruence. }
    { intros i l0 x Hi Hx. destruct (Hget i l0 Hi) as (d & k & Hd & Hk & _ & H1 & _).
      apply H1. apply (Hmv i d k x); assumption. }
    exists q. split; [exact Hq1|]. split; [|exact Hq3]. apply S3; [exact Hq1|exact Hq2|].
    intros ->. apply Hpne. apply (pick_spec lists _ p Hq1) in Hq3. destruct Hq3 as [_ Hq3].
    apply nth_error_ext. intros i. destruct (nth_error lists i) as [li|] eqn:Hli.
    + destruct (Hget i li Hli) as (d & k & Hd & Hk & H0 & _ & _). rewrite Hk.
      destruct (Hq3 i li 0 Hli) as (x & Hx1 & Hx2).
      { unfold lens_of. rewrite map_map, nth_error_map, Hli. reflexivity. }
      rewrite H0 in Hx1. injection Hx1 as <-. exact Hx2.
    + apply nth_error_None in Hli.
      assert (nth_error p i = None) as -> by (apply nth_error_None; lia).
      symmetry. apply nth_error_None. lia.
Qed.
End WF.
