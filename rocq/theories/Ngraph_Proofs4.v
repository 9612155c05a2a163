(** Time costs, and the whole search in the three settings. *)
From Coq Require Import List ZArith Arith Bool String Lia.
From Verif Require Import Base Matrix_Model Matrix_Spec Matrix_Proofs Token_Model Token_Spec Token_Thm
  Graph_Model Graph_Spec Graph_Proofs1 Graph_Proofs2 Graph_Proofs3 Graph_Proofs4 Graph_Proofs5
  Ngraph_Model Ngraph_Spec Ngraph_Proofs1 Ngraph_Proofs2 Ngraph_Proofs3.
Import ListNotations.
Open Scope res_scope.

(** ** The divisor *)

Lemma pow_step : forall k k', (0 <= k)%Z -> (k < k')%Z -> (10 * 10 ^ k | 10 ^ k')%Z.
Proof.
  intros k k' H0 H. exists (10 ^ (k' - k - 1))%Z.
  replace k' with ((k' - k - 1) + (1 + k))%Z at 1 by lia.
  rewrite Z.pow_add_r by lia. rewrite (Z.pow_add_r 10 1 k) by lia. rewrite Z.pow_1_r. reflexivity.
Qed.

Lemma lcp_unique : forall a b p q, largest_common_power a b p -> largest_common_power a b q -> p = q.
Proof.
  intros a b p q (k & Hk & -> & Ha & Hb & Hn) (k' & Hk' & -> & Ha' & Hb' & Hn').
  destruct (Z.lt_trichotomy k k') as [L|[->|L]]; [|reflexivity|].
  - exfalso. apply Hn. pose proof (pow_step k k' Hk L) as D. split; eapply Z.divide_trans; eassumption.
  - exfalso. apply Hn'. pose proof (pow_step k' k Hk' L) as D. split; eapply Z.divide_trans; eassumption.
Qed.

Lemma lcp_pos : forall a b p, largest_common_power a b p -> (0 < p)%Z.
Proof. intros a b p (k & Hk & -> & _). apply Z.pow_pos_nonneg; lia. Qed.

Lemma min_divider_ok : forall e ts m,
  (forall t, In t ts -> exists v,
     time_safe_divider {| to_start := te_start e t; to_end := te_end e t |} = Ok v /\
     largest_common_power (te_start e t) (te_end e t) v) ->
  (m = -1 \/ 0 < m)%Z ->
  exists v, min_divider e ts m = Ok v /\
    ((v = m /\ (ts = [] \/ 0 < m)%Z) \/
     exists t, In t ts /\ largest_common_power (te_start e t) (te_end e t) v) /\
    (forall t q, In t ts -> largest_common_power (te_start e t) (te_end e t) q -> (v <= q)%Z) /\
    ((0 < m)%Z -> (v <= m)%Z).
Proof.
  intros e. induction ts as [|t ts IH]; intros m Hok Hm.
  - exists m. cbn [min_divider]. split; [reflexivity|]. split; [left; auto|]. split; [intros ? ? []|lia].
  - destruct (Hok t (or_introl eq_refl)) as (w & Ew & Hw). pose proof (lcp_pos _ _ _ Hw) as Hpos.
    cbn [min_divider]. rewrite Ew. cbn [rbind].
    set (m' := if (Z.eqb m (-1) || (w <? m)%Z)%bool then w else m).
    assert (Hm' : (0 < m' /\ m' <= w /\ (m' = w \/ (m' = m /\ 0 < m)) /\ (0 < m -> m' <= m))%Z).
    { unfold m'. destruct (Z.eqb_spec m (-1)); simpl; [lia|]. destruct (Z.ltb_spec w m); lia. }
    destruct Hm' as (P1 & P2 & P3 & P4).
    destruct (IH m' (fun u Hu => Hok u (or_intror Hu)) (or_intror P1)) as (v & Ev & Hv & Hmin & Hle).
    exists v. split; [exact Ev|]. specialize (Hle P1). split; [|split].
    + destruct Hv as [[-> _]|(u & Hu & Hl)].
      * destruct P3 as [->|[-> Hp]]; [right; exists t; split; [now left|exact Hw]|left; auto].
      * right. exists u. split; [now right|exact Hl].
    + intros u q [<-|Hu] Hq; [rewrite (lcp_unique _ _ _ _ Hq Hw); lia|eapply Hmin; eassumption].
    + intros Hp. specialize (P4 Hp). lia.
Qed.

Section Unit.
Variable g : graph.
Hypothesis Htimed : timed_tokens g.
Hypothesis Hord : ordinary_times g.
Hypothesis Hpos : positive_prices g.
Let e := g_env g.

Lemma token_divider : forall t, In t (flat_map d_toks (g_dims g)) -> exists v,
     time_safe_divider {| to_start := te_start e t; to_end := te_end e t |} = Ok v /\
     largest_common_power (te_start e t) (te_end e t) v.
Proof.
  intros t Ht. pose proof (Hord t Ht) as Ho. apply in_flat_map in Ht. destruct Ht as (d & Hd & Ht).
  pose proof (Htimed d t Hd Ht) as H. fold e in H, Ho.
  apply (C13_divider_is_largest_power {| to_start := te_start e t; to_end := te_end e t |}); simpl; [lia|lia|exact Ho].
Qed.

Lemma time_unit_ok : forall dv, time_unit g dv -> time_divider g = Ok dv /\ (0 < dv)%Z.
Proof.
  intros dv (t & p & Ht & Hp & Hmin & ->). unfold time_divider. fold e in Hp, Hmin |- *.
  destruct (min_divider_ok e (flat_map d_toks (g_dims g)) (-1)%Z token_divider (or_introl eq_refl))
    as (v & -> & Hv & Hm & _). cbn [rbind].
  assert (v = p) as ->.
  { destruct Hv as [[_ [E|E]]|(u & Hu & Hl)]; [rewrite E in Ht; destruct Ht|lia|].
    specialize (Hm t p Ht Hp). specialize (Hmin u v Hu Hl). lia. }
  split; [reflexivity|]. pose proof (lcp_pos _ _ _ Hp). destruct Hpos as (H1 & H2 & H3 & H4).
  apply Z.mul_pos_pos; lia.
Qed.

Lemma time_unit_exists : flat_map d_toks (g_dims g) <> [] -> exists dv, time_unit g dv.
Proof.
  intros Hne.
  destruct (min_divider_ok e (flat_map d_toks (g_dims g)) (-1)%Z token_divider (or_introl eq_refl))
    as (v & _ & Hv & Hm & _).
  destruct Hv as [[_ [E|E]]|(u & Hu & Hl)]; [congruence|lia|].
  eexists. exists u, v. split; [exact Hu|]. split; [exact Hl|]. split; [exact Hm|reflexivity].
Qed.

Variable dv : Z.
Hypothesis Hdv : time_unit g dv.

Lemma scaled_ok : forall x, scaled g x = Ok (Z.quot x dv).
Proof.
  intros x. destruct (time_unit_ok dv Hdv) as [E H]. unfold scaled. rewrite E. cbn [rbind].
  destruct (Z.eqb_spec dv 0); [lia|reflexivity].
Qed.

Lemma quot_nonneg : forall x, (0 <= x)%Z -> (0 <= Z.quot x dv)%Z.
Proof. intros x H. destruct (time_unit_ok dv Hdv) as [_ Hd]. apply Z.quot_pos; assumption. Qed.

(** ** Hypothesis and reference *)

Lemma time_pair_ok : wf_graph g -> forall d1 d2 t1 t2,
  In d1 (g_dims g) -> In d2 (g_dims g) -> In t1 (d_toks d1) -> In t2 (d_toks d2) ->
  time_pair g t1 t2 = Ok (time_pair_cost upper g t1 t2) /\ (0 <= time_pair_cost upper g t1 t2)%Z.
Proof.
  intros Hwf d1 d2 t1 t2 Hd1 Hd2 Ht1 Ht2. unfold time_pair, time_pair_cost.
  destruct Hwf as (_ & _ & (Htr & _ & _ & Hns & _) & Hsr & _).
  set (b := (cf_trans (g_cfg g) * (Z.abs (te_start (g_env g) t1 - te_start (g_env g) t2)
     + Z.abs (te_end (g_env g) t1 - te_end (g_env g) t2)))%Z).
  assert (Hb : (0 <= b)%Z) by (apply Z.mul_nonneg_nonneg; lia).
  destruct (cf_spk (g_cfg g)) eqn:Es; simpl; [|split; [f_equal; lia|lia]].
  destruct (Hsr Es d1 d2 t1 t2 Hd1 Hd2 Ht1 Ht2) as [Hf Hc]. rewrite Hf, Hc, !String.eqb_refl. simpl.
  destruct (String.eqb _ _); simpl; (split; [f_equal; lia|lia]).
Qed.

Lemma time_hypref_ok : wf_graph g -> forall c p, valid g c -> cand g c p ->
  time_hypref_cost g c p = Ok (divided dv (column_time upper g) (column_of g c p)) /\
  (0 <= divided dv (column_time upper g) (column_of g c p))%Z.
Proof.
  intros Hwf c p Hv Hc.
  destruct (cand_changed g Hwf c p Hc) as [(i & d & k & x & Hd & Hk & Hp & -> & Hch)|
    (i & j & d & k & x & d' & k' & y & Hj & Hi & Hd & Hk & Hp & Hd' & Hk' & Hp' & -> & Hch)].
  - assert (Hx : x <> k) by (eapply pidx_neq; [exact Hwf|exact Hd|exact Hp]).
    destruct Hp as (t & Ht & Hp).
    assert (Hle : k <= List.length (d_toks d)) by (eapply valid_le; eassumption).
    pose proof (column_single g c i d k x t Hv Hd Hk Ht Hx) as He.
    unfold time_hypref_cost. rewrite Hch. rewrite (tok_at_tokd g c i d k Hd Hk Hle), Ht.
    unfold divided, column_time. rewrite He. rewrite scaled_ok.
    assert (Hdur : (0 <= te_end (g_env g) t - te_start (g_env g) t)%Z).
    { pose proof (Htimed d t (nth_error_In _ _ Hd) (tokd_In _ _ _ Ht)). lia. }
    destruct Hpos as (_ & H2 & H3 & _).
    unfold single_cost, cost_insertion.
    split.
    + f_equal. f_equal. f_equal. destruct (i <? g_ref g)%nat; simpl;
      destruct (cf_opt_hyp (g_cfg g)), (cf_opt_ref (g_cfg g)); simpl;
      destruct (te_optional (g_env g) t); reflexivity.
    + apply quot_nonneg. apply Z.mul_nonneg_nonneg; [|exact Hdur].
      destruct ((if (i <? g_ref g)%nat then cf_opt_hyp (g_cfg g) else cf_opt_ref (g_cfg g)) &&
        te_optional (g_env g) t); lia.
  - assert (Hx : x <> k) by (eapply pidx_neq; [exact Hwf|exact Hd|exact Hp]).
    assert (Hy : y <> k') by (eapply pidx_neq; [exact Hwf|exact Hd'|exact Hp']).
    destruct Hp as (t & Ht & Hp). destruct Hp' as (t' & Ht' & Hp').
    assert (Hle : k <= List.length (d_toks d)) by (eapply valid_le; eassumption).
    assert (Hle' : k' <= List.length (d_toks d')) by (eapply valid_le; eassumption).
    pose proof (column_double g c i j d k x t d' k' y t' Hv ltac:(lia) Hd Hk Ht Hx Hd' Hk' Ht' Hy) as He.
    unfold time_hypref_cost. rewrite Hch.
    rewrite (tok_at_tokd g c i d k Hd Hk Hle), Ht.
    rewrite (tok_at_tokd g c j d' k' Hd' Hk' Hle'), Ht'.
    unfold divided, column_time. rewrite He.
    destruct (time_pair_ok Hwf d' d t' t) as [-> H0].
    + eapply nth_error_In; exact Hd'.
    + eapply nth_error_In; exact Hd.
    + eapply tokd_In; exact Ht'.
    + eapply tokd_In; exact Ht.
    + cbn [rbind]. rewrite scaled_ok. split; [reflexivity|]. apply quot_nonneg. exact H0.
Qed.

(** ** Any number of speeches *)

Definition dimtok (t : nat) : Prop := exists d, In d (g_dims g) /\ In t (d_toks d).

Lemma dimtok_timed : forall t, dimtok t -> (0 <= te_start e t <= te_end e t)%Z.
Proof. intros t (d & Hd & Ht). apply (Htimed d t Hd Ht). Qed.

Lemma tok_at_dimtok : forall c i t, valid g c -> tok_at g c i = Some t -> dimtok t.
Proof.
  intros c i t Hv Ht. destruct (nth_error c i) as [k|] eqn:Hk.
  - destruct (Forall2_nth_r _ _ _ _ _ Hv _ _ Hk) as (d & Hd & Hle).
    rewrite (tok_at_tokd g c i d k Hd Hk Hle) in Ht.
    exists d. split; [eapply nth_error_In; exact Hd|eapply tokd_In; exact Ht].
  - exfalso. unfold tok_at in Ht. rewrite Hk in Ht. destruct (nth_error (g_dims g) i); discriminate.
Qed.

Lemma toks_dimtok : forall c is t, valid g c -> In t (toks_at g c is) -> dimtok t.
Proof.
  intros c is t Hv Ht. unfold toks_at in Ht. apply in_flat_map in Ht. destruct Ht as (i & _ & Ht).
  destruct (tok_at g c i) as [u|] eqn:E; [|destruct Ht]. destruct Ht as [<-|[]].
  eapply tok_at_dimtok; eassumption.
Qed.

Lemma span_loop_ok : forall c, valid g c -> forall is a b del, (0 <= a)%Z -> (0 <= b)%Z ->
  (forall i, In i is -> tok_at g c i <> None) ->
  span_loop g c is a b del =
    Ok (fold_left (fun m u => Z.min m (te_start e u)) (toks_at g c is) a,
        fold_left (fun m u => Z.max m (te_end e u)) (toks_at g c is) b,
        match toks_at g c is with [] => del | l => te_optional e (List.last l 0) end).
Proof.
  intros c Hv. induction is as [|i is IH]; intros a b del Ha Hb Hok; [reflexivity|].
  cbn [span_loop]. unfold toks_at in *. cbn [flat_map].
  destruct (tok_at g c i) as [t|] eqn:Et; [|destruct (Hok i (or_introl eq_refl) Et)].
  pose proof (dimtok_timed t (tok_at_dimtok c i t Hv Et)) as Hst. fold e.
  destruct (Z.eqb_spec a (-1)); [lia|]. destruct (Z.eqb_spec b (-1)); [lia|]. cbn [orb].
  assert (E1 : (if (te_start e t <? a)%Z then te_start e t else a) = Z.min a (te_start e t)).
  { destruct (Z.ltb_spec (te_start e t) a); lia. }
  assert (E2 : (if (b <? te_end e t)%Z then te_end e t else b) = Z.max b (te_end e t)).
  { destruct (Z.ltb_spec b (te_end e t)); lia. }
  rewrite E1, E2, IH; [|lia|lia|intros j Hj; apply Hok; now right].
  cbn [app fold_left].
  destruct (flat_map (fun i0 => match tok_at g c i0 with Some t0 => [t0] | None => [] end) is); reflexivity.
Qed.

Lemma span_first : forall c, valid g c -> forall is,
  (forall i, In i is -> tok_at g c i <> None) -> toks_at g c is <> [] ->
  span_loop g c is (-1)%Z (-1)%Z false =
    Ok (col_begin e (toks_at g c is), col_end e (toks_at g c is),
        te_optional e (List.last (toks_at g c is) 0)).
Proof.
  intros c Hv is Hok Hne. destruct is as [|i is]; [destruct Hne; reflexivity|].
  cbn [span_loop]. unfold toks_at in *. cbn [flat_map].
  destruct (tok_at g c i) as [t|] eqn:Et; [|destruct (Hok i (or_introl eq_refl) Et)].
  pose proof (dimtok_timed t (tok_at_dimtok c i t Hv Et)) as Hst. fold e. cbn [Z.eqb Pos.eqb orb].
  rewrite (span_loop_ok c Hv); [|lia|lia|intros j Hj; apply Hok; now right].
  unfold toks_at. cbn [app col_begin col_end].
  destruct (flat_map (fun i0 => match tok_at g c i0 with Some t0 => [t0] | None => [] end) is); reflexivity.
Qed.

Definition pickd (c p : list nat) (is : list nat) : list nat :=
  flat_map (fun i => match (if mem i (changed c p) then tok_at g c i else None) with
                     | Some t => [t] | None => [] end) is.

Lemma pickd_column : forall c p, pickd c p (seq 0 (List.length (g_dims g))) = tokens_of (column_of g c p).
Proof.
  intros c p. unfold tokens_of, entries, column_of, pickd. rewrite entries_map_seq.
  generalize (seq 0 (List.length (g_dims g))). induction l as [|i l IH]; [reflexivity|].
  cbn [flat_map]. rewrite map_app, IH.
  destruct (if mem i (changed c p) then tok_at g c i else None); reflexivity.
Qed.

Lemma pickd_le : forall c p is, List.length (pickd c p is) <= List.length is.
Proof.
  intros c p. unfold pickd. induction is as [|i is IH]; cbn [flat_map]; [simpl; lia|].
  rewrite app_length. destruct (if mem i (changed c p) then tok_at g c i else None); simpl in *; lia.
Qed.

Lemma time_loop_ok : forall c p mint maxt,
  (forall i, In i (changed c p) -> tok_at g c i <> None) ->
  forall is del tr,
  time_loop g c p is mint maxt del tr =
    Ok ((del + (maxt - mint) * (Z.of_nat (List.length is) - Z.of_nat (List.length (pickd c p is))))%Z,
        match pickd c p is with
        | [] => tr
        | l => (maxt - te_end e (List.last l 0%nat) + te_start e (List.last l 0%nat) - mint)%Z
        end).
Proof.
  intros c p mint maxt Hok. induction is as [|i is IH]; intros del tr; cbn [time_loop].
  - unfold pickd. cbn [flat_map List.length]. f_equal. f_equal. lia.
  - unfold pickd in *. cbn [flat_map]. destruct (mem i (changed c p)) eqn:Em.
    + destruct (tok_at g c i) as [t|] eqn:Et.
      2:{ apply mem_In in Em. destruct (Hok i Em Et). }
      rewrite IH. cbn [app List.length].
      set (r := flat_map (fun i0 => match (if mem i0 (changed c p) then tok_at g c i0 else None) with
                     | Some t0 => [t0] | None => [] end) is).
      f_equal. f_equal; [lia|]. destruct r; reflexivity.
    + rewrite IH. cbn [app List.length]. f_equal. f_equal. lia.
Qed.

Lemma fold_min_le : forall r a t, (fold_left (fun m u => Z.min m (te_start e u)) r a <= a)%Z /\
  (In t r -> (fold_left (fun m u => Z.min m (te_start e u)) r a <= te_start e t)%Z).
Proof.
  induction r as [|u r IH]; intros a t; cbn [fold_left]; [split; [lia|intros []]|].
  destruct (IH (Z.min a (te_start e u)) t) as [I1 I2]. split; [lia|].
  intros [<-|Ht]; [|apply I2; exact Ht]. destruct (IH (Z.min a (te_start e u)) u) as [I3 _]. lia.
Qed.

Lemma fold_max_ge : forall r a t, (a <= fold_left (fun m u => Z.max m (te_end e u)) r a)%Z /\
  (In t r -> (te_end e t <= fold_left (fun m u => Z.max m (te_end e u)) r a)%Z).
Proof.
  induction r as [|u r IH]; intros a t; cbn [fold_left]; [split; [lia|intros []]|].
  destruct (IH (Z.max a (te_end e u)) t) as [I1 I2]. split; [lia|].
  intros [<-|Ht]; [|apply I2; exact Ht]. destruct (IH (Z.max a (te_end e u)) u) as [I3 _]. lia.
Qed.

Lemma col_bounds : forall ts t, In t ts ->
  (col_begin e ts <= te_start e t)%Z /\ (te_end e t <= col_end e ts)%Z.
Proof.
  intros [|u r] t Ht; [destruct Ht|]. cbn [col_begin col_end].
  pose proof (fold_min_le r (te_start e u) t) as [A1 A2]. pose proof (fold_max_ge r (te_end e u) t) as [B1 B2].
  destruct Ht as [<-|Ht]; [split; assumption|split; [apply A2|apply B2]; exact Ht].
Qed.

Lemma last_In' : forall (l : list nat) d, l <> [] -> In (List.last l d) l.
Proof.
  induction l as [|x l IH]; intros d H; [congruence|]. destruct l as [|y l]; [now left|].
  right. apply (IH d). discriminate.
Qed.

Lemma time_generic_ok : wf_nway g -> forall c p, valid g c -> nstep g c p ->
  time_generic_cost g c p = Ok (divided dv (nway_time g) (column_of g c p)) /\
  (0 <= divided dv (nway_time g) (column_of g c p))%Z.
Proof.
  intros Hwf c p Hv Hs. pose proof (valid_length _ _ Hv) as Hl. pose proof Hs as (_ & Hlen & _).
  destruct (nstep_tokens g Hwf c p Hv Hs) as [Hok Hne].
  pose proof (tokens_column g c p Hl Hlen) as Et.
  unfold time_generic_cost. rewrite (span_first c Hv _ Hok Hne). cbn [rbind]. cbn beta iota.
  rewrite (time_loop_ok c p _ _ Hok). cbn [rbind]. cbn beta iota.
  rewrite pickd_column, seq_length, scaled_ok. unfold divided, nway_time. cbv zeta. fold e.
  pose proof (tokens_le (column_of g c p)) as Htl. rewrite column_length in Htl.
  rewrite Et in *.
  assert (Hlast : In (List.last (toks_at g c (changed c p)) 0) (toks_at g c (changed c p)))
    by (apply last_In'; exact Hne).
  pose proof (col_bounds _ _ Hlast) as [B1 B2].
  pose proof (dimtok_timed _ (toks_dimtok c _ _ Hv Hlast)) as Hst.
  set (ts := toks_at g c (changed c p)) in *.
  destruct Hpos as (H1 & H2 & H3 & _).
  split.
  - f_equal. f_equal. clearbody ts. destruct ts as [|t0 ts0]; [congruence|].
    unfold cost_insertion. rewrite Z.add_0_l. f_equal. f_equal. lia.
  - apply quot_nonneg. apply Z.add_nonneg_nonneg; apply Z.mul_nonneg_nonneg; try lia.
    + destruct (te_optional e (List.last ts 0)); lia.
    + apply Z.mul_nonneg_nonneg; lia.
Qed.
End Unit.

(** ** Starting points *)

Section Starts.
Variable g : graph.
Hypothesis Hwf : wf_nway g.

Lemma nstarts_valid : forall c, In c (starting_coordinates g) -> valid g c.
Proof.
  intros c Hc. apply starts_spec in Hc. unfold valid.
  assert (G : forall ds c, (forall d, In d ds -> wf_dim (g_env g) d) ->
    Forall2 (fun d k => In k (start_choices d)) ds c ->
    Forall2 (fun d k => k <= List.length (d_toks d)) ds c).
  { clear c Hc. intros ds c Hd H. induction H as [|d k ds c Hk H IH]; constructor.
    - apply (start_choice_last g d k); [apply Hd; now left|exact Hk].
    - apply IH. intros d' Hd'. apply Hd. now right. }
  apply G; [|exact Hc]. apply Hwf.
Qed.

Lemma nwalk_start : forall c al, In c (starting_coordinates g) -> walk g (nstep g) c al ->
  nway_alignment g al.
Proof.
  intros c al Hc Hw. pose proof (nstarts_valid c Hc) as Hv.
  destruct (nwalk_alignment g Hwf c al Hv Hw) as [H1 H2]. split; [exact H1|].
  intros i d Hd. apply starts_spec in Hc.
  destruct (Forall2_nth _ _ _ _ _ Hc _ _ Hd) as (k & Hk & Hks).
  apply (ppath_complete g d k); [apply Hwf; eapply nth_error_In; exact Hd|exact Hks|].
  apply H2; assumption.
Qed.

Lemma nalignment_start : forall al, nway_alignment g al ->
  exists c, In c (starting_coordinates g) /\ walk g (nstep g) c al.
Proof.
  intros al [Hl Hc].
  assert (G : forall ds (off : nat), (forall i d, nth_error ds i = Some d ->
       wf_dim (g_env g) d /\ complete_path (g_env g) d (words_of (off + i) al)) ->
    exists c, Forall2 (fun d k => In k (start_choices d)) ds c /\
      forall i d k, nth_error ds i = Some d -> nth_error c i = Some k -> ppath (g_env g) d k (words_of (off + i) al)).
  { induction ds as [|d ds IH]; intros off H.
    - exists []. split; [constructor|]. intros [|i]; discriminate.
    - destruct (IH (S off)) as (c & Hf & Hp).
      { intros i d' Hd'. replace (S off + i) with (off + S i) by lia. apply H. exact Hd'. }
      destruct (H 0 d eq_refl) as [Hd Hcp]. rewrite Nat.add_0_r in Hcp.
      destruct (complete_ppath g d _ Hd Hcp) as (k & Hk & Hpk).
      exists (k :: c). split; [constructor; assumption|].
      intros [|i] d' k' Hd' Hk'; simpl in Hd', Hk'.
      + injection Hd' as <-. injection Hk' as <-. rewrite Nat.add_0_r. exact Hpk.
      + replace (off + S i) with (S off + i) by lia. apply Hp; assumption. }
  destruct (G (g_dims g) 0) as (c & Hf & Hp).
  { intros i d Hd. split; [apply Hwf; eapply nth_error_In; exact Hd|]. simpl. apply Hc. exact Hd. }
  simpl in Hp. apply starts_spec in Hf. exists c. split; [exact Hf|].
  apply nalignment_walk; auto. apply nstarts_valid. exact Hf.
Qed.

(** The n-way search with any column cost the program computes. *)
Lemma nway_search : forall m ccost, n_hypref m = false -> n_wrap m = true ->
  (forall c p, valid g c -> nstep g c p ->
     n_cost m g c p = Ok (ccost (column_of g c p)) /\ (0 <= ccost (column_of g c p))%Z) ->
  exists N, forall fuel, N <= fuel -> exists best al,
    n_align array_store m g fuel (new_array_store g) = Ok (best, al) /\
    nway_alignment g al /\ total ccost al = best /\
    forall al', nway_alignment g al' -> (best <= total ccost al')%Z.
Proof.
  intros m ccost Hm Hw Hcost. pose proof Hwf as (_ & (rank & Hr) & _).
  destruct (n_align_ok m g (nstep g) ccost (mu rank (g_dims g))) with (S := array_store)
    (allow_fail := False) (rep := array_rep g) (s0 := new_array_store g) as [N HN].
  - intros c Hv. unfold n_previous. rewrite Hm, Hw. apply previous_generic_ok; assumption.
  - apply nstep_alive. exact Hwf.
  - intros c p. apply nstep_valid. exact Hwf.
  - exact Hcost.
  - apply nstep_mu. exact Hr.
  - apply array_get_ok.
  - apply array_set_ok.
  - exists []. split; [constructor|]. split; [reflexivity|]. intros c _. reflexivity.
  - apply nstarts_valid.
  - apply starts_nonempty.
  - exists N. intros fuel HF. specialize (HN fuel HF).
    destruct (n_align array_store m g fuel (new_array_store g)) as [[best al]| | |]; try contradiction.
    cbn [outcome fst snd] in HN. destruct HN as ((c & Hc & Hwk) & Hco & Hmin).
    exists best, al. split; [reflexivity|]. split; [eapply nwalk_start; eassumption|]. split; [exact Hco|].
    intros al' Hal'. destruct (nalignment_start al' Hal') as (c' & Hc' & Hw'). apply (Hmin c'); assumption.
Qed.
End Starts.

(** ** Hypotheses against references, by time *)

Lemma walks_agree : forall g c al, Ngraph_Proofs1.walk g (step g) c al <-> Graph_Proofs3.walk g c al.
Proof.
  intros g c al. split; intros H; induction H as [c He|c p al He Hs Hw IH].
  - constructor. exact He.
  - apply Graph_Proofs3.walk_step; assumption.
  - constructor. exact He.
  - apply Ngraph_Proofs1.walk_step; assumption.
Qed.

Lemma time_search : forall g m dv, wf_graph g -> timed_tokens g -> ordinary_times g ->
  positive_prices g -> time_unit g dv -> n_hypref m = true -> n_time m = true ->
  exists N, forall fuel, N <= fuel -> exists best al,
    n_align array_store m g fuel (new_array_store g) = Ok (best, al) /\
    is_alignment g al /\ total (divided dv (column_time upper g)) al = best /\
    (no_pruning g -> forall al', is_alignment g al' -> (best <= total (divided dv (column_time upper g)) al')%Z).
Proof.
  intros g m dv Hwf Ht Ho Hp Hd Hm Htm. pose proof Hwf as (_ & (rank & Hr) & _).
  destruct (n_align_ok m g (step g) (divided dv (column_time upper g)) (mu rank (g_dims g))) with (S := array_store)
    (allow_fail := False) (rep := array_rep g) (s0 := new_array_store g) as [N HN].
  - intros c Hv. unfold n_previous. rewrite Hm. apply previous_coordinates_spec; assumption.
  - apply no_dead_end. exact Hwf.
  - intros c p Hv [Hs _]. eapply cand_valid; eassumption.
  - intros c p Hv [Hs _]. unfold n_cost. rewrite Hm, Htm. apply time_hypref_ok; assumption.
  - intros c p Hv [Hs _]. eapply cand_mu; eassumption.
  - apply array_get_ok.
  - apply array_set_ok.
  - exists []. split; [constructor|]. split; [reflexivity|]. intros c _. reflexivity.
  - apply starts_valid. exact Hwf.
  - apply starts_nonempty.
  - exists N. intros fuel HF. specialize (HN fuel HF).
    destruct (n_align array_store m g fuel (new_array_store g)) as [[best al]| | |]; try contradiction.
    cbn [outcome fst snd] in HN. destruct HN as ((c & Hc & Hwk) & Hco & Hmin).
    exists best, al. split; [reflexivity|]. apply walks_agree in Hwk.
    split; [eapply walk_start_alignment; eassumption|]. split; [exact Hco|].
    intros Hnp al' Hal'. destruct (alignment_has_walk g Hwf Hnp al' Hal') as (c' & Hc' & Hw').
    apply (Hmin c'); [exact Hc'|]. apply walks_agree. exact Hw'.
Qed.
