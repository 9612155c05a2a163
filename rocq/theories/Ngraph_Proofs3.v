(** Steps of the n-way graph, the cost of a column, and walks as n-way alignments. *)
From Coq Require Import List ZArith Arith Bool String Lia.
From Verif Require Import Base Matrix_Model Matrix_Proofs Graph_Model Graph_Spec Graph_Proofs1 Graph_Proofs2
  Graph_Proofs3 Graph_Proofs4 Ngraph_Model Ngraph_Spec Ngraph_Proofs1 Ngraph_Proofs2.
Import ListNotations.
Open Scope res_scope.

(** ** Changed dimensions and columns *)

Lemma changed_from_ge : forall a b k i, In i (changed_from k a b) -> k <= i.
Proof.
  induction a as [|x a IH]; intros b k i H; [destruct H|]. destruct b as [|y b]; [destruct H|].
  cbn [changed_from] in H. destruct (Nat.eqb x y).
  - apply IH in H. lia.
  - destruct H as [<-|H]; [lia|]. apply IH in H. lia.
Qed.

Lemma changed_from_In : forall a b k i, List.length a = List.length b ->
  (In (k + i) (changed_from k a b) <->
   exists x y, nth_error a i = Some x /\ nth_error b i = Some y /\ x <> y).
Proof.
  induction a as [|x a IH]; intros b k i Hl; (destruct b as [|y b]; [|]); try discriminate.
  - simpl. split; [tauto|]. intros (u & v & H & _). destruct i; discriminate.
  - cbn [changed_from]. assert (Hl' : List.length a = List.length b) by (simpl in Hl; congruence).
    destruct i as [|i].
    + simpl. rewrite Nat.add_0_r. destruct (Nat.eqb_spec x y) as [->|Hne].
      * split; [intros H; apply changed_from_ge in H; lia|].
        intros (u & v & H1 & H2 & H3). congruence.
      * split; [intros _; exists x, y; auto|]. intros _. now left.
    + simpl nth_error. replace (k + S i) with (S k + i) by lia. rewrite <- (IH b (S k) i Hl').
      destruct (Nat.eqb x y); [reflexivity|]. simpl. split; [intros [H|H]; [lia|exact H]|auto].
Qed.

Lemma changed_mem : forall a b i, List.length a = List.length b ->
  (mem i (changed a b) = true <->
   exists x y, nth_error a i = Some x /\ nth_error b i = Some y /\ x <> y).
Proof.
  intros a b i Hl. rewrite mem_In. unfold changed. rewrite <- (changed_from_In a b 0 i Hl). reflexivity.
Qed.

Lemma mem_changed_iff : forall a b i x y, List.length a = List.length b ->
  nth_error a i = Some x -> nth_error b i = Some y ->
  mem i (changed a b) = negb (Nat.eqb x y).
Proof.
  intros a b i x y Hl Hx Hy. pose proof (changed_mem a b i Hl) as H.
  destruct (Nat.eqb_spec x y) as [->|Hne]; simpl.
  - destruct (mem i (changed a b)); [|reflexivity]. destruct (proj1 H eq_refl) as (u & v & H1 & H2 & H3). congruence.
  - apply H. exists x, y. auto.
Qed.

Definition toks_at (g : graph) (c : list nat) (is : list nat) : list nat :=
  flat_map (fun i => match tok_at g c i with Some t => [t] | None => [] end) is.

Lemma mem_cons_ge : forall i k l, k < i -> mem i (k :: l) = mem i l.
Proof. intros i k l H. simpl. destruct (Nat.eqb_spec k i); [lia|reflexivity]. Qed.

Lemma flat_changed : forall (f : nat -> option nat) a b k L, List.length a = List.length b ->
  (forall i, k <= i -> mem i L = mem i (changed_from k a b)) ->
  map snd (flat_map (fun i => match (if mem i L then f i else None) with
                              | Some t => [(i, t)] | None => [] end) (seq k (List.length a)))
  = flat_map (fun i => match f i with Some t => [t] | None => [] end) (changed_from k a b).
Proof.
  intros f. induction a as [|x a IH]; intros b k L Hl HL; (destruct b as [|y b]; [|]); try discriminate; [reflexivity|].
  assert (Hl' : List.length a = List.length b) by (simpl in Hl; congruence).
  cbn [List.length seq flat_map]. rewrite map_app.
  rewrite (IH b (S k) L Hl').
  - rewrite (HL k (le_n k)). cbn [changed_from]. destruct (Nat.eqb x y) eqn:E.
    + assert (mem k (changed_from (S k) a b) = false) as ->; [|reflexivity].
      apply mem_false. intros H. apply changed_from_ge in H. lia.
    + cbn [mem]. rewrite Nat.eqb_refl. cbn [flat_map]. destruct (f k); reflexivity.
  - intros i Hi. rewrite (HL i) by lia. cbn [changed_from]. destruct (Nat.eqb x y); [reflexivity|].
    apply mem_cons_ge. lia.
Qed.

Lemma tokens_column : forall g c p, List.length c = List.length (g_dims g) ->
  List.length p = List.length c ->
  tokens_of (column_of g c p) = toks_at g c (changed c p).
Proof.
  intros g c p Hc Hp. unfold tokens_of, entries, column_of, toks_at.
  rewrite entries_map_seq. rewrite <- Hc. apply flat_changed; [congruence|]. reflexivity.
Qed.

(** ** Groups of tokens that say the same *)

Section Groups.
Variable e : tok_env.
Hypothesis Hag : agreement e.

Lemma eq_refl' : forall t, te_equiv e t t = true. Proof. apply Hag. Qed.
Lemma eq_sym' : forall t u, te_equiv e t u = te_equiv e u t. Proof. apply Hag. Qed.
Lemma eq_trans' : forall t u v, te_equiv e t u = true -> te_equiv e u v = true -> te_equiv e t v = true.
Proof. apply Hag. Qed.

Definition sharing (r : nat) (ts : list nat) : nat := List.length (filter (te_equiv e r) ts).

Definition groups (ts : list nat) (gs : list (nat * nat)) : Prop :=
  (forall r k, In (r, k) gs -> In r ts /\ k = sharing r ts) /\
  (forall t, In t ts -> exists r k, In (r, k) gs /\ te_equiv e t r = true) /\
  (forall i j r k r' k', nth_error gs i = Some (r, k) -> nth_error gs j = Some (r', k') ->
     i <> j -> te_equiv e r r' = false).

Lemma sharing_snoc : forall r ts t,
  sharing r (ts ++ [t]) = sharing r ts + (if te_equiv e r t then 1 else 0).
Proof.
  intros r ts t. unfold sharing. rewrite filter_app, app_length. simpl.
  destruct (te_equiv e r t); reflexivity.
Qed.

Lemma sharing_none : forall t ts, (forall u, In u ts -> te_equiv e t u = false) -> sharing t ts = 0.
Proof.
  intros t ts. unfold sharing. induction ts as [|u ts IH]; intros H; [reflexivity|]. simpl.
  rewrite (H u (or_introl eq_refl)). apply IH. intros v Hv. apply H. now right.
Qed.

Lemma last_match_spec : forall t gs i found,
  match last_match e t i found gs with
  | None => found = None /\ forall r k, In (r, k) gs -> te_equiv e t r = false
  | Some j => (found = Some j /\ forall r k, In (r, k) gs -> te_equiv e t r = false) \/
      (i <= j /\ exists r k, nth_error gs (j - i) = Some (r, k) /\ te_equiv e t r = true)
  end.
Proof.
  intros t. induction gs as [|[r k] gs IH]; intros i found; cbn [last_match].
  - destruct found as [j|]; [left|]; (split; [reflexivity|intros ? ? []]).
  - specialize (IH (S i) (if te_equiv e t r then Some i else found)).
    destruct (last_match e t (S i) (if te_equiv e t r then Some i else found) gs) as [j|].
    + destruct IH as [[E H]|(Hle & r' & k' & H1 & H2)].
      * destruct (te_equiv e t r) eqn:Er.
        -- injection E as <-. right. split; [lia|]. exists r, k. rewrite Nat.sub_diag. auto.
        -- left. split; [exact E|]. intros r' k' [H'|H']; [congruence|eapply H; exact H'].
      * right. split; [lia|]. exists r', k'. replace (j - i) with (S (j - S i)) by lia. auto.
    + destruct IH as [E H]. destruct (te_equiv e t r) eqn:Er; [discriminate|].
      split; [exact E|]. intros r' k' [H'|H']; [congruence|eapply H; exact H'].
Qed.

Lemma count_token_ok : forall ts gs t, groups ts gs ->
  exists gs', count_token e gs t = Ok gs' /\ groups (ts ++ [t]) gs'.
Proof.
  intros ts gs t (G1 & G2 & G3). unfold count_token.
  pose proof (last_match_spec t gs 0 None) as H.
  destruct (last_match e t 0 None gs) as [j|].
  - destruct H as [[H _]|(_ & r & k & Hn & He)]; [discriminate|]. rewrite Nat.sub_0_r in Hn.
    rewrite Hn. eexists. split; [reflexivity|].
    assert (Hj : j < List.length gs) by (apply nth_error_Some; congruence).
    assert (Hnth : forall i r' k', nth_error (update gs j (r, S k)) i = Some (r', k') ->
      (i = j /\ r' = r /\ k' = S k) \/ (i <> j /\ nth_error gs i = Some (r', k'))).
    { intros i r' k' Hi. destruct (Nat.eq_dec j i) as [->|Hne].
      - rewrite nth_error_update_same in Hi by exact Hj. injection Hi as <- <-. auto.
      - rewrite nth_error_update_other in Hi by exact Hne. right. auto. }
    assert (Hrep : forall i r' k', nth_error (update gs j (r, S k)) i = Some (r', k') ->
      exists k0, nth_error gs i = Some (r', k0)).
    { intros i r' k' Hi. apply Hnth in Hi. destruct Hi as [(-> & -> & _)|[_ Hi]]; eauto. }
    split; [|split].
    + intros r' k' Hin. apply In_nth_error in Hin. destruct Hin as [i Hi].
      pose proof (Hrep _ _ _ Hi) as [k0 Hk0]. destruct (G1 r' k0 (nth_error_In _ _ Hk0)) as [Hr' Ek0].
      split; [apply in_or_app; now left|]. rewrite sharing_snoc.
      apply Hnth in Hi. destruct Hi as [(-> & -> & ->)|[Hne Hi]].
      * rewrite Hn in Hk0. injection Hk0 as <-. rewrite (eq_sym' r t), He. lia.
      * rewrite Hi in Hk0. injection Hk0 as <-.
        assert (te_equiv e r' t = false) as ->; [|lia].
        destruct (te_equiv e r' t) eqn:E; [|reflexivity].
        pose proof (eq_trans' _ _ _ E He) as E2. rewrite (G3 i j _ _ _ _ Hi Hn Hne) in E2. discriminate.
    + intros u Hu. assert (Hkeep : forall r' k', In (r', k') gs -> exists k'', In (r', k'') (update gs j (r, S k))).
      { intros r' k' Hin. apply In_nth_error in Hin. destruct Hin as [i Hi].
        destruct (Nat.eq_dec j i) as [->|Hne].
        - rewrite Hn in Hi. injection Hi as <- <-. exists (S k).
          eapply nth_error_In. apply nth_error_update_same. exact Hj.
        - exists k'. eapply nth_error_In. rewrite nth_error_update_other by exact Hne. exact Hi. }
      apply in_app_or in Hu. destruct Hu as [Hu|[<-|[]]].
      * destruct (G2 u Hu) as (r' & k' & Hin & E). destruct (Hkeep r' k' Hin) as [k'' Hk]. eauto.
      * destruct (Hkeep r k (nth_error_In _ _ Hn)) as [k'' Hk]. eauto.
    + intros i i' r1 k1 r2 k2 H1 H2 Hne. apply Hrep in H1. apply Hrep in H2.
      destruct H1 as [k1' H1]. destruct H2 as [k2' H2]. eapply G3; eassumption.
  - destruct H as [_ H]. eexists. split; [reflexivity|].
    assert (Hno : forall u, In u ts -> te_equiv e t u = false).
    { intros u Hu. destruct (te_equiv e t u) eqn:E; [|reflexivity].
      destruct (G2 u Hu) as (r & k & Hin & E2). pose proof (eq_trans' _ _ _ E E2) as E3.
      rewrite (H r k Hin) in E3. discriminate. }
    split; [|split].
    + intros r k Hin. rewrite sharing_snoc. apply in_app_or in Hin. destruct Hin as [Hin|[E|[]]].
      * destruct (G1 r k Hin) as [Hr ->]. split; [apply in_or_app; now left|].
        rewrite eq_sym', (H r _ Hin). lia.
      * injection E as <- <-. split; [apply in_or_app; right; now left|].
        rewrite eq_refl', sharing_none by exact Hno. reflexivity.
    + intros u Hu. apply in_app_or in Hu. destruct Hu as [Hu|[<-|[]]].
      * destruct (G2 u Hu) as (r & k & Hin & E). exists r, k. split; [apply in_or_app; now left|exact E].
      * exists t, 1. split; [apply in_or_app; right; now left|apply eq_refl'].
    + intros i j r k r' k' Hi Hj Hne.
      assert (A : forall x rr kk, nth_error (gs ++ [(t, 1)]) x = Some (rr, kk) ->
        nth_error gs x = Some (rr, kk) \/ (x = List.length gs /\ rr = t)).
      { intros x rr kk Hx. destruct (Nat.lt_ge_cases x (List.length gs)) as [L|L].
        - rewrite nth_error_app1 in Hx by exact L. now left.
        - right. rewrite nth_error_app2 in Hx by exact L.
          destruct (x - List.length gs) as [|y] eqn:Ey; simpl in Hx; [|destruct y; discriminate].
          injection Hx as <- _. split; [lia|reflexivity]. }
      destruct (A i r k Hi) as [Hi'|[Ei ->]]; destruct (A j r' k' Hj) as [Hj'|[Ej ->]].
      * eapply G3; eassumption.
      * rewrite eq_sym'. apply (H r k). eapply nth_error_In; exact Hi'.
      * apply (H r' k'). eapply nth_error_In; exact Hj'.
      * lia.
Qed.

Lemma max_count_acc : forall gs m0,
  let m := fold_left (fun m (r : nat * nat) => if Nat.ltb m (snd r) then snd r else m) gs m0 in
  m0 <= m /\ (forall r k, In (r, k) gs -> k <= m) /\
  (m = m0 \/ exists r k, In (r, k) gs /\ m = k).
Proof.
  induction gs as [|[r0 k0] gs IH]; intros m0; cbn [fold_left snd].
  - cbv zeta. split; [lia|]. split; [intros ? ? []|now left].
  - destruct (IH (if Nat.ltb m0 k0 then k0 else m0)) as (I1 & I2 & I3). cbv zeta in *.
    destruct (Nat.ltb_spec m0 k0) as [L|L].
    + split; [lia|]. split.
      * intros r k [E|Hin]; [injection E as <- <-; exact I1|eapply I2; exact Hin].
      * right. destruct I3 as [->|(r & k & Hin & ->)]; [exists r0, k0; split; [now left|reflexivity]|].
        exists r, k. split; [now right|reflexivity].
    + split; [lia|]. split.
      * intros r k [E|Hin]; [injection E as <- <-; lia|eapply I2; exact Hin].
      * destruct I3 as [->|(r & k & Hin & ->)]; [now left|]. right. exists r, k. split; [now right|reflexivity].
Qed.

Lemma max_list : forall l n, (forall x, In x l -> x <= n) -> (n = 0 \/ In n l) ->
  fold_right Nat.max 0 l = n.
Proof.
  intros l n H Hn.
  assert (A : fold_right Nat.max 0 l <= n).
  { clear Hn. induction l as [|x l IH]; simpl; [lia|].
    assert (x <= n) by (apply H; now left).
    assert (fold_right Nat.max 0 l <= n) by (apply IH; intros y Hy; apply H; now right). lia. }
  assert (B : forall x, In x l -> x <= fold_right Nat.max 0 l).
  { clear. induction l as [|x l IH]; intros y Hy; [destruct Hy|]. simpl.
    destruct Hy as [->|Hy]; [lia|]. specialize (IH y Hy). lia. }
  destruct Hn as [->|Hn]; [lia|]. specialize (B n Hn). lia.
Qed.

Lemma max_count_agreeing : forall ts gs, groups ts gs -> max_count gs = agreeing e ts.
Proof.
  intros ts gs (G1 & G2 & G3). symmetry. unfold agreeing, max_count.
  destruct (max_count_acc gs 0) as (_ & M1 & M2). cbv zeta in *.
  set (mx := fold_left (fun m (r : nat * nat) => if Nat.ltb m (snd r) then snd r else m) gs 0) in *.
  apply max_list.
  - intros x Hx. apply in_map_iff in Hx. destruct Hx as (t & <- & Ht).
    destruct (G2 t Ht) as (r & k & Hin & E). destruct (G1 r k Hin) as [_ Ek].
    assert (Es : filter (te_equiv e t) ts = filter (te_equiv e r) ts).
    { apply filter_ext. intros u. destruct (te_equiv e t u) eqn:E1, (te_equiv e r u) eqn:E2; auto.
      - rewrite eq_sym' in E. pose proof (eq_trans' _ _ _ E E1). congruence.
      - pose proof (eq_trans' _ _ _ E E2). congruence. }
    rewrite Es. fold (sharing r ts). rewrite <- Ek. eapply M1. exact Hin.
  - destruct M2 as [->|(r & k & Hin & ->)]; [now left|]. right.
    destruct (G1 r k Hin) as [Hr ->]. apply in_map_iff. exists r. auto.
Qed.
End Groups.

(** ** The cost of a column *)

Lemma count_loop_ok : forall g c is, agreement (g_env g) ->
  (forall i, In i is -> tok_at g c i <> None) ->
  forall ts gs del nbr, groups (g_env g) ts gs ->
  exists gs', count_loop g c is gs del nbr =
      Ok (gs', match toks_at g c is with [] => del | l => te_optional (g_env g) (List.last l 0) end,
          nbr + List.length (toks_at g c is)) /\
    groups (g_env g) (ts ++ toks_at g c is) gs'.
Proof.
  intros g c is Hag. induction is as [|i is IH]; intros Hok ts gs del nbr Hg.
  - cbn [count_loop]. unfold toks_at. simpl. rewrite Nat.add_0_r, app_nil_r. eauto.
  - cbn [count_loop]. destruct (tok_at g c i) as [t|] eqn:Et; [|destruct (Hok i (or_introl eq_refl) Et)].
    destruct (count_token_ok (g_env g) Hag ts gs t Hg) as (gs1 & -> & Hg1). cbn [rbind].
    destruct (IH (fun j Hj => Hok j (or_intror Hj)) (ts ++ [t]) gs1 (te_optional (g_env g) t) (S nbr) Hg1)
      as (gs2 & -> & Hg2).
    exists gs2. unfold toks_at in *. cbn [flat_map]. rewrite Et.
    set (r := flat_map (fun i0 => match tok_at g c i0 with Some t0 => [t0] | None => [] end) is) in *.
    split.
    + f_equal. f_equal; [|simpl; lia]. f_equal. destruct r as [|u r]; [reflexivity|]. reflexivity.
    + rewrite <- app_assoc in Hg2. exact Hg2.
Qed.

Lemma filter_le : forall (f : nat -> bool) l, List.length (filter f l) <= List.length l.
Proof. intros f. induction l as [|x l IH]; simpl; [lia|]. destruct (f x); simpl; lia. Qed.

Lemma agreeing_le : forall e ts, agreeing e ts <= List.length ts.
Proof.
  intros e ts. unfold agreeing.
  assert (A : forall l n, (forall x, In x l -> x <= n) -> fold_right Nat.max 0 l <= n).
  { induction l as [|x l IH]; intros n H; simpl; [lia|].
    assert (x <= n) by (apply H; now left).
    assert (fold_right Nat.max 0 l <= n) by (apply IH; intros y Hy; apply H; now right). lia. }
  apply A. intros x Hx. apply in_map_iff in Hx. destruct Hx as (t & <- & _). apply filter_le.
Qed.

Lemma tokens_le : forall col, List.length (tokens_of col) <= List.length col.
Proof.
  intros col. unfold tokens_of, entries. rewrite map_length. generalize 0.
  induction col as [|[t|] col IH]; intros k; cbn [entries_from List.length]; [lia| |]; specialize (IH (S k)); lia.
Qed.

Section WF.
Variable g : graph.
Hypothesis Hwf : wf_nway g.
Let e := g_env g.
Let n := List.length (g_dims g).

Lemma nstep_nth : forall c p i d k x, valid g c -> nstep g c p ->
  nth_error (g_dims g) i = Some d -> nth_error c i = Some k -> nth_error p i = Some x ->
  (x = k /\ mem i (changed c p) = false) \/ (pidx e d k x /\ x <> k /\ mem i (changed c p) = true).
Proof.
  intros c p i d k x Hv (Hne & Hlen & Hmv) Hd Hk Hx.
  rewrite (mem_changed_iff c p i k x); [|congruence|exact Hk|exact Hx].
  destruct (Hmv i d k x Hd Hk Hx) as [->|Hp].
  - left. rewrite Nat.eqb_refl. auto.
  - right. assert (x <> k) by (eapply pidx_lt_rank; eassumption). split; [exact Hp|]. split; [exact H|].
    destruct (Nat.eqb_spec k x); [congruence|reflexivity].
Qed.

Lemma nth_same : forall A B (a : list A) (b : list B) i x, List.length a = List.length b ->
  nth_error a i = Some x -> exists y, nth_error b i = Some y.
Proof.
  intros A B a b i x Hl Hx. destruct (nth_error b i) as [y|] eqn:E; [eauto|].
  apply nth_error_None in E. assert (i < List.length a) by (apply nth_error_Some; congruence). lia.
Qed.

Lemma nstep_valid : forall c p, valid g c -> nstep g c p -> valid g p.
Proof.
  intros c p Hv Hs. pose proof (valid_length _ _ Hv) as Hl. pose proof Hs as (_ & Hlen & _).
  apply Forall2_intro_nth; [congruence|]. intros i d x Hd Hx.
  destruct (nth_same _ _ p c i x) as [k Hk]; [congruence|exact Hx|].
  assert (Hle : k <= List.length (d_toks d)) by (eapply valid_le; eassumption).
  destruct (nstep_nth c p i d k x Hv Hs Hd Hk Hx) as [[-> _]|(Hp & _)]; [exact Hle|].
  destruct Hp as (t & _ & [[_ ->]|(q & _ & Hq & ->)]); [lia|]. apply tokd_index. exact Hq.
Qed.

Lemma nstep_alive : forall c, valid g c -> is_ending c = false -> exists p, nstep g c p.
Proof.
  intros c Hv He. destruct (not_ending_exists c He) as (i & k & Hk & Hk0).
  destruct (Forall2_nth_r _ _ _ _ _ Hv _ _ Hk) as (d & Hd & Hle).
  destruct (tokd_Some d k Hle Hk0) as (t & Ht & _).
  destruct (previous_indexes_spec e d k t (nwf_d g Hwf i d Hd) Ht) as (l & _ & Hne & Hl).
  destruct l as [|x l]; [congruence|].
  assert (Hp : pidx e d k x) by (exists t; split; [exact Ht|apply Hl; now left]).
  assert (Hx : x <> k) by (eapply pidx_lt_rank; eassumption).
  exists (update c i x). split; [|split].
  - intros E. apply Hx. assert (H : nth_error (update c i x) i = Some x)
      by (apply nth_error_update_same; apply nth_error_Some; congruence).
    rewrite E in H. congruence.
  - apply update_length.
  - intros j d' k' x' Hd' Hk' Hx'. destruct (Nat.eq_dec i j) as [<-|Hij].
    + rewrite nth_error_update_same in Hx' by (apply nth_error_Some; congruence).
      injection Hx' as <-. right. rewrite Hd in Hd'. injection Hd' as <-. rewrite Hk in Hk'. injection Hk' as <-. exact Hp.
    + rewrite nth_error_update_other in Hx' by exact Hij. left. congruence.
Qed.

Lemma moves_mu : forall rank ds c p,
  (forall d t q, In d ds -> In t (d_toks d) -> In q (d_toks d) -> In q (te_prec e t) -> rank q < rank t) ->
  List.length c = List.length ds -> List.length p = List.length ds ->
  (forall i d k x, nth_error ds i = Some d -> nth_error c i = Some k -> nth_error p i = Some x -> move g d k x) ->
  mu rank ds p <= mu rank ds c /\ (p <> c -> mu rank ds p < mu rank ds c).
Proof.
  intros rank. induction ds as [|d ds IH]; intros c p Hr Hc Hp Hmv.
  - destruct c, p; try discriminate. split; [lia|congruence].
  - destruct c as [|k c]; [discriminate|]. destruct p as [|x p]; [discriminate|].
    destruct (IH c p) as [I1 I2].
    { intros d' t q Hd'. apply Hr. now right. }
    { simpl in Hc; congruence. } { simpl in Hp; congruence. }
    { intros i d' k' x' H1 H2 H3. apply (Hmv (S i)); assumption. }
    cbn [mu]. destruct (Hmv 0 d k x eq_refl eq_refl eq_refl) as [->|Hpi].
    + split; [lia|]. intros Hne. assert (p <> c) by congruence. specialize (I2 H). lia.
    + assert (irank rank d x < irank rank d k); [|split; lia].
      destruct Hpi as (t & Ht & H). unfold irank. rewrite Ht.
      destruct H as [[_ ->]|(q & Hq1 & Hq2 & ->)]; [simpl; lia|].
      destruct (tokd_index d q Hq2) as (_ & _ & ->).
      assert (rank q < rank t); [|lia]. apply (Hr d); auto; [now left|eapply tokd_In; exact Ht].
Qed.

Lemma nstep_mu : forall rank,
  (forall d t q, In d (g_dims g) -> In t (d_toks d) -> In q (d_toks d) -> In q (te_prec e t) -> rank q < rank t) ->
  forall c p, valid g c -> nstep g c p -> mu rank (g_dims g) p < mu rank (g_dims g) c.
Proof.
  intros rank Hr c p Hv (Hne & Hlen & Hmv). pose proof (valid_length _ _ Hv) as Hl.
  apply (moves_mu rank (g_dims g) c p); auto. congruence.
Qed.

(** Every changed dimension has a token, and some dimension is changed. *)
Lemma nstep_tokens : forall c p, valid g c -> nstep g c p ->
  (forall i, In i (changed c p) -> tok_at g c i <> None) /\ toks_at g c (changed c p) <> [].
Proof.
  intros c p Hv Hs. pose proof (valid_length _ _ Hv) as Hl. pose proof Hs as (Hne & Hlen & _).
  assert (A : forall i, In i (changed c p) -> exists t, tok_at g c i = Some t).
  { intros i Hi. apply mem_In in Hi. pose proof Hi as Hm.
    apply changed_mem in Hi; [|congruence]. destruct Hi as (k & x & Hk & Hx & _).
    destruct (nth_same _ _ c (g_dims g) i k Hl Hk) as [d Hd].
    assert (Hle : k <= List.length (d_toks d)) by (eapply valid_le; eassumption).
    rewrite (tok_at_tokd g c i d k Hd Hk Hle).
    destruct (nstep_nth c p i d k x Hv Hs Hd Hk Hx) as [[_ E]|((t & Ht & _) & _)]; [congruence|eauto]. }
  split; [intros i Hi E; destruct (A i Hi) as [t Ht]; congruence|].
  assert (B : changed c p <> []).
  { intros E. apply Hne. apply nth_error_ext. intros i.
    destruct (nth_error c i) as [k|] eqn:Hk.
    - destruct (nth_same _ _ c p i k) as [x Hx]; [congruence|exact Hk|].
      assert (Hm : mem i (changed c p) = false) by (rewrite E; reflexivity).
      rewrite (mem_changed_iff c p i k x) in Hm; [|congruence|exact Hk|exact Hx].
      destruct (Nat.eqb_spec k x); [congruence|discriminate].
    - apply nth_error_None in Hk. apply nth_error_None. lia. }
  destruct (changed c p) as [|i is]; [congruence|]. unfold toks_at. cbn [flat_map].
  destruct (A i (or_introl eq_refl)) as [t ->]. discriminate.
Qed.

Lemma generic_word_ok : agreement e -> forall c p, valid g c -> nstep g c p ->
  generic_word_cost g c p = Ok (nway_word_cost g (column_of g c p)) /\
  (0 <= nway_word_cost g (column_of g c p))%Z.
Proof.
  intros Hag c p Hv Hs. pose proof (valid_length _ _ Hv) as Hl. pose proof Hs as (_ & Hlen & _).
  destruct (nstep_tokens c p Hv Hs) as [Hok Hne].
  pose proof (tokens_column g c p Hl Hlen) as Et.
  assert (G0 : groups e [] []).
  { split; [intros ? ? []|]. split; [intros ? []|]. intros [|i] j r k r' k' H; discriminate. }
  destruct (count_loop_ok g c (changed c p) Hag Hok [] [] false 0 G0) as (gs & Ec & Hg).
  unfold generic_word_cost. rewrite Ec. cbn [rbind]. cbn beta iota.
  rewrite (max_count_agreeing (g_env g) Hag _ _ Hg). cbn [app plus].
  pose proof (tokens_le (column_of g c p)) as Htl. rewrite column_length in Htl.
  pose proof (agreeing_le (g_env g) (tokens_of (column_of g c p))) as Hal.
  unfold nway_word_cost. cbv zeta. rewrite Et in *.
  set (ts := toks_at g c (changed c p)) in *.
  clearbody ts. destruct ts as [|t0 ts0]; [congruence|]. split; [reflexivity|].
  destruct Hwf as (_ & _ & Htr & Hin & Hop). fold n in Htl.
  apply Z.add_nonneg_nonneg; apply Z.mul_nonneg_nonneg; try lia.
  destruct (te_optional (g_env g) (List.last (t0 :: ts0) 0)); assumption.
Qed.

(** ** Walks and alignments *)

Lemma nwalk_alignment : forall c al, valid g c -> walk g (nstep g) c al ->
  Forall (nway_column n) al /\
  forall i d k, nth_error (g_dims g) i = Some d -> nth_error c i = Some k ->
    ppath e d k (words_of i al).
Proof.
  intros c al Hv Hw. induction Hw as [c He|c p al He Hs Hw IH].
  - split; [constructor|]. intros i d k Hd Hk.
    rewrite is_ending_spec in He. rewrite (He i k Hk). constructor.
  - pose proof (nstep_valid c p Hv Hs) as Hvp. destruct (IH Hvp) as [IH1 IH2].
    pose proof (valid_length _ _ Hv) as Hl. pose proof Hs as (_ & Hlen & _).
    split.
    { apply Forall_app. split; [exact IH1|]. constructor; [|constructor]. split; [apply column_length|].
      rewrite (tokens_column g c p Hl Hlen). apply nstep_tokens; assumption. }
    intros i d k Hd Hk. rewrite words_snoc.
    assert (Hin : i < n) by (apply nth_error_Some; congruence).
    rewrite (column_nth g c p i Hin).
    assert (Hle : k <= List.length (d_toks d)) by (exact (valid_le g c i d k Hv Hd Hk)).
    rewrite (tok_at_tokd g c i d k Hd Hk Hle).
    destruct (nth_same _ _ c p i k) as [x Hx]; [congruence|exact Hk|].
    destruct (nstep_nth c p i d k x Hv Hs Hd Hk Hx) as [[-> ->]|(Hpi & _ & ->)].
    + rewrite app_nil_r. apply IH2; assumption.
    + pose proof Hpi as (t & Ht & _). rewrite Ht.
      apply ppath_snoc with (x := x); [exact Hpi|exact Ht|]. apply IH2; assumption.
Qed.

Lemma choose : forall (P : nat -> nat -> Prop) k,
  (forall i, i < k -> exists x, P i x) ->
  exists p, List.length p = k /\ forall i x, nth_error p i = Some x -> P i x.
Proof.
  intros P k. induction k as [|k IH]; intros H.
  - exists []. split; [reflexivity|]. intros [|i]; discriminate.
  - destruct IH as (p & Hl & Hp); [intros i Hi; apply H; lia|].
    destruct (H k) as [x Hx]; [lia|]. exists (p ++ [x]). split; [rewrite app_length; simpl; lia|].
    intros i y Hy. destruct (Nat.lt_ge_cases i k) as [L|L].
    + rewrite nth_error_app1 in Hy by lia. apply Hp. exact Hy.
    + rewrite nth_error_app2 in Hy by lia. destruct (i - List.length p) as [|j] eqn:E; simpl in Hy; [|destruct j; discriminate].
      injection Hy as <-. replace i with k by lia. exact Hx.
Qed.

Lemma tokens_some : forall col, tokens_of col <> [] -> exists i t, nth_error col i = Some (Some t).
Proof.
  intros col H. unfold tokens_of in H. destruct (entries col) as [|[i t] r] eqn:E; [simpl in H; congruence|].
  exists i, t. pose proof (proj1 (entries_In g col i t)) as H1. apply H1. unfold entries in *. rewrite E. now left.
Qed.

Lemma nalignment_walk : forall al c, valid g c -> Forall (nway_column n) al ->
  (forall i d k, nth_error (g_dims g) i = Some d -> nth_error c i = Some k ->
    ppath e d k (words_of i al)) ->
  walk g (nstep g) c al.
Proof.
  induction al as [|col al IH] using rev_ind; intros c Hv Hl Hp.
  - constructor. apply is_ending_spec. intros i k Hk.
    destruct (Forall2_nth_r _ _ _ _ _ Hv _ _ Hk) as (d & Hd & _).
    specialize (Hp i d k Hd Hk). simpl in Hp.
    inversion Hp as [|k' x ws t H1 H2 H3 E]; [reflexivity|].
    destruct ws; discriminate.
  - apply Forall_app in Hl. destruct Hl as [Hl Hcol]. inversion Hcol as [|? ? Hlc _]; subst.
    destruct Hlc as [Hlen Htoks]. pose proof (valid_length _ _ Hv) as Hcl.
    destruct (choose (fun i x => forall d k, nth_error (g_dims g) i = Some d -> nth_error c i = Some k ->
       match nth_error col i with
       | Some (Some t) => pidx e d k x /\ x <> k /\ tokd d k = Some t
       | _ => x = k
       end /\ ppath e d x (words_of i al)) n) as (p & Hpl & Hpp).
    { intros i Hi.
      destruct (nth_error (g_dims g) i) as [d|] eqn:Hd; [|apply nth_error_None in Hd; unfold n in Hi; lia].
      destruct (Forall2_nth _ _ _ _ _ Hv _ _ Hd) as (k & Hk & _).
      pose proof (Hp i d k Hd Hk) as H. rewrite words_snoc in H.
      destruct (nth_error col i) as [[t|]|] eqn:Ec.
      - apply ppath_snoc_inv in H. destruct H as (x & H1 & H2 & H3).
        exists x. intros d' k' Hd' Hk'. injection Hd' as <-. rewrite Hk in Hk'. injection Hk' as <-.
        split; [|exact H3]. split; [exact H1|]. split; [eapply pidx_lt_rank; eassumption|exact H2].
      - rewrite app_nil_r in H. exists k. intros d' k' Hd' Hk'. injection Hd' as <-. rewrite Hk in Hk'. injection Hk' as <-. auto.
      - rewrite app_nil_r in H. exists k. intros d' k' Hd' Hk'. injection Hd' as <-. rewrite Hk in Hk'. injection Hk' as <-. auto. }
    assert (Hs : nstep g c p).
    { split; [|split].
      - intros ->. destruct (tokens_some col Htoks) as (i & t & Hi).
        assert (Hin : i < n) by (rewrite <- Hlen; apply nth_error_Some; congruence).
        destruct (nth_error (g_dims g) i) as [d|] eqn:Hd; [|apply nth_error_None in Hd; unfold n in Hin; lia].
        destruct (Forall2_nth _ _ _ _ _ Hv _ _ Hd) as (k & Hk & _).
        destruct (Hpp i k Hk d k Hd Hk) as [H _]. rewrite Hi in H. destruct H as (_ & H & _). congruence.
      - unfold n in Hpl. congruence.
      - intros i d k x Hd Hk Hx. destruct (Hpp i x Hx d k Hd Hk) as [H _].
        destruct (nth_error col i) as [[t|]|]; [right; apply H|now left|now left]. }
    assert (Ecol : col = column_of g c p).
    { apply nth_error_ext. intros i. destruct (Nat.lt_ge_cases i n) as [L|L].
      - rewrite (column_nth g c p i L).
        destruct (nth_error (g_dims g) i) as [d|] eqn:Hd; [|apply nth_error_None in Hd; unfold n in L; lia].
        destruct (Forall2_nth _ _ _ _ _ Hv _ _ Hd) as (k & Hk & Hle).
        destruct (nth_same _ _ c p i k) as [x Hx]; [unfold n in Hpl; congruence|exact Hk|].
        rewrite (mem_changed_iff c p i k x); [|unfold n in Hpl; congruence|exact Hk|exact Hx].
        rewrite (tok_at_tokd g c i d k Hd Hk Hle).
        destruct (Hpp i x Hx d k Hd Hk) as [H _].
        destruct (nth_error col i) as [[t|]|] eqn:Ec.
        + destruct H as (_ & H1 & H2). destruct (Nat.eqb_spec k x); [congruence|]. simpl. rewrite H2. reflexivity.
        + subst x. rewrite Nat.eqb_refl. reflexivity.
        + apply nth_error_None in Ec. lia.
      - assert (nth_error col i = None) as -> by (apply nth_error_None; lia).
        symmetry. apply nth_error_None. rewrite column_length. exact L. }
    rewrite Ecol. apply walk_step.
    + destruct (is_ending c) eqn:He; [|reflexivity]. exfalso.
      destruct (tokens_some col Htoks) as (i & t & Hi).
      assert (Hin : i < n) by (rewrite <- Hlen; apply nth_error_Some; congruence).
      destruct (nth_error (g_dims g) i) as [d|] eqn:Hd; [|apply nth_error_None in Hd; unfold n in Hin; lia].
      destruct (Forall2_nth _ _ _ _ _ Hv _ _ Hd) as (k & Hk & _).
      destruct (nth_same _ _ c p i k) as [x Hx]; [unfold n in Hpl; congruence|exact Hk|].
      destruct (Hpp i x Hx d k Hd Hk) as [H _]. rewrite Hi in H. destruct H as (_ & _ & H).
      rewrite is_ending_spec in He. rewrite (He i k Hk) in H. discriminate.
    + exact Hs.
    + apply IH; [eapply nstep_valid; eassumption|exact Hl|].
      intros i d x Hd Hx.
      destruct (Forall2_nth _ _ _ _ _ Hv _ _ Hd) as (k & Hk & _).
      apply (Hpp i x Hx d k Hd Hk).
Qed.
End WF.
