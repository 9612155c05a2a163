(** Transition costs, walks and the search. *)
From Coq Require Import List ZArith Arith Bool String Lia.
From Verif Require Import Base Matrix_Model Matrix_Spec Matrix_Proofs Graph_Model Graph_Spec
  Graph_Proofs1 Graph_Proofs2.
Import ListNotations.
Open Scope res_scope.

(** ** Columns *)

Lemma entries_map_seq : forall f n k,
  entries_from k (map f (seq k n)) =
  flat_map (fun i => match f i with Some t => [(i, t)] | None => [] end) (seq k n).
Proof.
  intros f. induction n as [|n IH]; intros k; simpl; [reflexivity|].
  destruct (f k); simpl; rewrite IH; reflexivity.
Qed.

Lemma flat_none : forall (f : nat -> option nat) l, (forall i, In i l -> f i = None) ->
  flat_map (fun i => match f i with Some t => [(i, t)] | None => [] end) l = [].
Proof.
  intros f. induction l as [|i l IH]; intros H; simpl; [reflexivity|].
  rewrite (H i (or_introl eq_refl)). simpl. apply IH. intros j Hj. apply H. now right.
Qed.

Lemma seq_split_at : forall k n i, k <= i -> i < k + n ->
  seq k n = seq k (i - k) ++ i :: seq (S i) (k + n - S i).
Proof.
  intros k n i H1 H2.
  replace n with ((i - k) + (1 + (k + n - S i))) at 1 by lia.
  rewrite !seq_app. simpl. repeat f_equal; lia.
Qed.

Lemma entries_single : forall f n i t, i < n -> f i = Some t ->
  (forall j, j <> i -> f j = None) -> entries (map f (seq 0 n)) = [(i, t)].
Proof.
  intros f n i t Hi Ht Ho. unfold entries. rewrite entries_map_seq.
  rewrite (seq_split_at 0 n i) by lia. rewrite flat_map_app. simpl. rewrite Ht.
  rewrite !flat_none; [reflexivity| |]; intros j Hj; apply in_seq in Hj; apply Ho; lia.
Qed.

Lemma entries_double : forall f n i j t u, j < i -> i < n -> f i = Some t -> f j = Some u ->
  (forall k, k <> i -> k <> j -> f k = None) -> entries (map f (seq 0 n)) = [(j, u); (i, t)].
Proof.
  intros f n i j t u Hj Hi Ht Hu Ho. unfold entries. rewrite entries_map_seq.
  rewrite (seq_split_at 0 n i) by lia. rewrite flat_map_app. simpl. rewrite Ht.
  rewrite (seq_split_at 0 (i - 0) j) by lia. rewrite flat_map_app. simpl. rewrite Hu.
  rewrite !flat_none; [reflexivity| | |]; intros k Hk; apply in_seq in Hk; apply Ho; lia.
Qed.

Section WF.
Variable g : graph.
Hypothesis Hwf : wf_graph g.
Let e := g_env g.
Let cfg := g_cfg g.
Let n := List.length (g_dims g).

Lemma cost_adaptive_ok : forall t1 t2,
  cost_adaptive g t1 t2 = Ok (adaptive_cost e cfg t1 t2) /\ (0 <= adaptive_cost e cfg t1 t2)%Z.
Proof.
  intros t1 t2. unfold cost_adaptive, adaptive_cost, span_gap, begin_of, end_of.
  fold e cfg.
  change (if (te_start e t1 <? 0)%Z then te_segstart e t1 else te_start e t1) with (span_begin e t1).
  change (if (te_start e t2 <? 0)%Z then te_segstart e t2 else te_start e t2) with (span_begin e t2).
  change (if (te_end e t1 <? 0)%Z then te_segend e t1 else te_end e t1) with (span_end e t1).
  change (if (te_end e t2 <? 0)%Z then te_segend e t2 else te_end e t2) with (span_end e t2).
  destruct Hwf as (_ & _ & (_ & _ & _ & _ & Had & Hmd & _) & _). fold cfg in Had, Hmd.
  destruct (cf_adaptive cfg); simpl; [|split; [reflexivity|lia]].
  set (s1 := span_begin e t1). set (s2 := span_begin e t2).
  set (e1 := span_end e t1). set (e2 := span_end e t2).
  assert (Hq : forall x, (0 <= x)%Z -> (0 <= Z.quot (cf_adapt cfg * x) (cf_maxdur cfg))%Z).
  { intros x Hx. apply Z.quot_pos; [|lia]. apply Z.mul_nonneg_nonneg; assumption. }
  destruct (Z.ltb_spec s1 0), (Z.ltb_spec s2 0), (Z.ltb_spec e1 0), (Z.ltb_spec e2 0);
    simpl;
    repeat match goal with |- context [(0 <=? ?x)%Z] => destruct (Z.leb_spec 0 x); try lia end;
    simpl; try (split; [f_equal; rewrite Z.mul_0_r, Z.quot_0_l by lia; reflexivity|apply Hq; lia]).
  destruct (Z.eqb_spec (cf_maxdur cfg) 0); [lia|].
  destruct (Z.ltb_spec e1 s2).
  - rewrite Z.max_r by lia. split; [reflexivity|apply Hq; lia].
  - destruct (Z.ltb_spec e2 s1).
    + rewrite Z.max_r by lia. split; [reflexivity|apply Hq; lia].
    + rewrite Z.max_l by lia. split; [|apply Hq; lia].
      f_equal. rewrite Z.mul_0_r, Z.quot_0_l by lia. reflexivity.
Qed.

Lemma cost_pair_ok : forall d1 d2 t1 t2,
  In d1 (g_dims g) -> In d2 (g_dims g) -> In t1 (d_toks d1) -> In t2 (d_toks d2) ->
  cost_pair g t1 t2 = Ok (pair_cost e cfg t1 t2) /\ (0 <= pair_cost e cfg t1 t2)%Z.
Proof.
  intros d1 d2 t1 t2 Hd1 Hd2 Ht1 Ht2. unfold cost_pair.
  destruct (cost_adaptive_ok t1 t2) as [-> Had]. cbn [rbind]. fold e cfg.
  unfold pair_cost, cost_word_align. fold e cfg.
  destruct Hwf as (_ & _ & (Htr & _ & _ & Hns & _ & _ & Hed) & Hsr & _).
  fold cfg in Htr, Hns, Hsr. fold e in Hed, Hsr.
  destruct (te_equiv e t1 t2); simpl.
  - destruct (cf_spk cfg) eqn:Es; simpl.
    + destruct (Hsr Es d1 d2 t1 t2 Hd1 Hd2 Ht1 Ht2) as [Hf Hc]. fold e in Hf, Hc.
      rewrite Hf, Hc. rewrite !String.eqb_refl. simpl.
      destruct (String.eqb _ _); simpl; (split; [f_equal; lia|lia]).
    + split; [f_equal; lia|lia].
  - specialize (Hed t1 t2). split; [f_equal; lia|]. destruct (cf_wordalign cfg); lia.
Qed.

Lemma column_single : forall c i d k x t,
  valid g c -> nth_error (g_dims g) i = Some d -> nth_error c i = Some k ->
  tokd d k = Some t -> x <> k ->
  entries (column_of g c (update c i x)) = [(i, t)].
Proof.
  intros c i d k x t Hv Hd Hk Ht Hx. unfold column_of.
  rewrite (changed_update c i k x Hk Hx).
  apply entries_single.
  - apply nth_error_Some. congruence.
  - simpl. rewrite Nat.eqb_refl. rewrite (tok_at_tokd g c i d k Hd Hk); [exact Ht|].
    eapply valid_le; eassumption.
  - intros j Hj. simpl. destruct (Nat.eqb_spec i j); congruence.
Qed.

Lemma column_double : forall c i j d k x t d' k' y t',
  valid g c -> j < i ->
  nth_error (g_dims g) i = Some d -> nth_error c i = Some k -> tokd d k = Some t -> x <> k ->
  nth_error (g_dims g) j = Some d' -> nth_error c j = Some k' -> tokd d' k' = Some t' -> y <> k' ->
  entries (column_of g c (update (update c i x) j y)) = [(j, t'); (i, t)].
Proof.
  intros c i j d k x t d' k' y t' Hv Hji Hd Hk Ht Hx Hd' Hk' Ht' Hy. unfold column_of.
  rewrite (changed_update2 c i j k x k' y Hji Hk Hx Hk' Hy).
  apply entries_double.
  - exact Hji.
  - apply nth_error_Some. congruence.
  - simpl. rewrite Nat.eqb_refl. destruct (Nat.eqb_spec j i); [lia|].
    rewrite (tok_at_tokd g c i d k Hd Hk); [exact Ht|]. eapply valid_le; eassumption.
  - simpl. rewrite Nat.eqb_refl.
    rewrite (tok_at_tokd g c j d' k' Hd' Hk'); [exact Ht'|]. eapply valid_le; eassumption.
  - intros m Hm1 Hm2. simpl. destruct (Nat.eqb_spec j m); [congruence|].
    destruct (Nat.eqb_spec i m); congruence.
Qed.

Lemma column_length : forall c p, List.length (column_of g c p) = n.
Proof. intros. unfold column_of. rewrite map_length, seq_length. reflexivity. Qed.

Lemma transition_ok : forall c p, valid g c -> cand g c p ->
  transition_cost g c p = Ok (column_cost g (column_of g c p)) /\
  (0 <= column_cost g (column_of g c p))%Z /\
  legal_column n (g_ref g) (column_of g c p).
Proof.
  intros c p Hv Hc.
  destruct (cand_changed g Hwf c p Hc) as [(i & d & k & x & Hd & Hk & Hp & -> & Hch)|
    (i & j & d & k & x & d' & k' & y & Hj & Hi & Hd & Hk & Hp & Hd' & Hk' & Hp' & -> & Hch)].
  - assert (Hx : x <> k) by (eapply pidx_neq; [exact Hwf|exact Hd|exact Hp]).
    destruct Hp as (t & Ht & Hp).
    assert (Hle : k <= List.length (d_toks d)) by (eapply valid_le; eassumption).
    pose proof (column_single c i d k x t Hv Hd Hk Ht Hx) as He.
    unfold transition_cost. rewrite Hch. rewrite (tok_at_tokd g c i d k Hd Hk Hle), Ht.
    unfold legal_column, column_cost. rewrite He, column_length.
    unfold single_cost, cost_insertion.
    destruct Hwf as (_ & _ & (_ & Hins & Hopt & _) & _).
    repeat split; auto.
    + destruct (i <? g_ref g)%nat; simpl;
      destruct (cf_opt_hyp (g_cfg g)), (cf_opt_ref (g_cfg g)); simpl;
      destruct (te_optional (g_env g) t); reflexivity.
    + destruct ((if (i <? g_ref g)%nat then cf_opt_hyp (g_cfg g) else cf_opt_ref (g_cfg g)) &&
        te_optional (g_env g) t); assumption.
  - assert (Hx : x <> k) by (eapply pidx_neq; [exact Hwf|exact Hd|exact Hp]).
    assert (Hy : y <> k') by (eapply pidx_neq; [exact Hwf|exact Hd'|exact Hp']).
    destruct Hp as (t & Ht & Hp). destruct Hp' as (t' & Ht' & Hp').
    assert (Hle : k <= List.length (d_toks d)) by (eapply valid_le; eassumption).
    assert (Hle' : k' <= List.length (d_toks d')) by (eapply valid_le; eassumption).
    pose proof (column_double c i j d k x t d' k' y t' Hv ltac:(lia) Hd Hk Ht Hx Hd' Hk' Ht' Hy) as He.
    unfold transition_cost. rewrite Hch.
    rewrite (tok_at_tokd g c i d k Hd Hk Hle), Ht.
    rewrite (tok_at_tokd g c j d' k' Hd' Hk' Hle'), Ht'.
    unfold legal_column, column_cost. rewrite He, column_length.
    destruct (cost_pair_ok d' d t' t) as [-> H0].
    + eapply nth_error_In; exact Hd'.
    + eapply nth_error_In; exact Hd.
    + eapply tokd_In; exact Ht'.
    + eapply tokd_In; exact Ht.
    + repeat split; auto.
Qed.

(** ** Walks *)

Inductive walk : list nat -> list (list (option nat)) -> Prop :=
| walk_end : forall c, is_ending c = true -> walk c []
| walk_step : forall c p al, is_ending c = false -> step g c p -> walk p al ->
    walk c (al ++ [column_of g c p]).

Lemma alignment_cost_snoc : forall al col,
  alignment_cost g (al ++ [col]) = (alignment_cost g al + column_cost g col)%Z.
Proof.
  induction al as [|c al IH]; intros col; cbn [app alignment_cost]; [lia|].
  rewrite IH. lia.
Qed.

Lemma walk_nonneg : forall c al, valid g c -> walk c al -> (0 <= alignment_cost g al)%Z.
Proof.
  intros c al Hv Hw. induction Hw as [c He|c p al He Hs Hw IH]; [simpl; lia|].
  rewrite alignment_cost_snoc.
  destruct (transition_ok c p Hv (proj1 Hs)) as (_ & H & _).
  assert (valid g p) by (eapply cand_valid; [exact Hwf|exact Hv|exact (proj1 Hs)]).
  specialize (IH H0). lia.
Qed.

Definition is_min (c : list nat) (v : Z) : Prop :=
  (exists al, walk c al /\ alignment_cost g al = v) /\
  forall al, walk c al -> (v <= alignment_cost g al)%Z.

Lemma is_min_nonneg : forall c v, valid g c -> is_min c v -> (0 <= v)%Z.
Proof.
  intros c v Hv [(al & Hw & <-) _]. eapply walk_nonneg; eassumption.
Qed.

Lemma is_min_unique : forall c v w, is_min c v -> is_min c w -> v = w.
Proof.
  intros c v w [(a & Ha & <-) Hv] [(b & Hb & <-) Hw].
  specialize (Hv _ Hb). specialize (Hw _ Ha). lia.
Qed.

Lemma is_min_end : forall c, is_ending c = true -> is_min c 0.
Proof.
  intros c He. split.
  - exists []. split; [constructor; exact He|reflexivity].
  - intros al Hw. inversion Hw; subst; [simpl; lia|congruence].
Qed.

Definition cc (c p : list nat) : Z := column_cost g (column_of g c p).

Lemma is_min_step : forall c v (f : list nat -> Z),
  is_ending c = false ->
  (forall p, step g c p -> is_min p (f p)) ->
  (exists p, step g c p /\ v = f p + cc c p)%Z ->
  (forall p, step g c p -> v <= f p + cc c p)%Z ->
  is_min c v.
Proof.
  intros c v f He Hf (p & Hp & Hv) Hle. split.
  - destruct (Hf p Hp) as [(al & Hw & Hc) _].
    exists (al ++ [column_of g c p]). split; [constructor; assumption|].
    rewrite alignment_cost_snoc, Hc. symmetry. exact Hv.
  - intros al Hw. inversion Hw as [|? q al' _ Hq Hw']; subst; [congruence|].
    rewrite alignment_cost_snoc. destruct (Hf q Hq) as [_ Hm]. specialize (Hm _ Hw').
    specialize (Hle q Hq). unfold cc in *. lia.
Qed.

Lemma is_min_attained : forall c v (f : list nat -> Z),
  is_ending c = false -> is_min c v -> (forall p, step g c p -> is_min p (f p)) ->
  (exists p, step g c p /\ v = f p + cc c p)%Z /\
  (forall p, step g c p -> v <= f p + cc c p)%Z.
Proof.
  intros c v f He [(al & Hw & Hc) Hm] Hf.
  assert (Hle : forall p, step g c p -> (v <= f p + cc c p)%Z).
  { intros p Hp. destruct (Hf p Hp) as [(al' & Hw' & Hc') _].
    specialize (Hm _ (walk_step c p al' He Hp Hw')).
    rewrite alignment_cost_snoc in Hm. unfold cc. lia. }
  split; [|exact Hle].
  inversion Hw as [|? q al' _ Hq Hw']; subst; [congruence|].
  exists q. split; [exact Hq|]. specialize (Hle q Hq).
  destruct (Hf q Hq) as [_ Hmq]. specialize (Hmq _ Hw').
  rewrite alignment_cost_snoc in *. unfold cc in *. lia.
Qed.

(** ** The search, over any store that behaves like a function *)

Section Store.
Variable S : cost_store.
Variable allow_fail : Prop.
Variable rep : cs_state S -> (list nat -> Z) -> Prop.

Definition outcome {A} (r : res A) (P : A -> Prop) : Prop :=
  match r with Ok a => P a | _ => allow_fail end.

Definition coord_dec : forall a b : list nat, {a = b} + {a <> b} := list_eq_dec Nat.eq_dec.
Definition fset (f : list nat -> Z) (c : list nat) (v : Z) : list nat -> Z :=
  fun x => if coord_dec x c then v else f x.

Hypothesis get_ok : forall s f c, rep s f -> valid g c ->
  outcome (cs_get S s c) (fun r => fst r = f c /\ rep (snd r) f).
Hypothesis set_ok : forall s f c v, rep s f -> valid g c -> (0 <= v)%Z ->
  outcome (cs_set S s c v) (fun s' => rep s' (fset f c v)).

Lemma outcome_bind : forall A B (r : res A) (k : A -> res B) (P : A -> Prop) (Q : B -> Prop),
  outcome r P -> (forall a, P a -> outcome (k a) Q) -> outcome (rbind r k) Q.
Proof. intros A B r k P Q H HK. destruct r; simpl in *; auto. Qed.

Lemma outcome_mono : forall A (r : res A) (P Q : A -> Prop),
  outcome r P -> (forall a, P a -> Q a) -> outcome r Q.
Proof. intros A r P Q H HI. destruct r; simpl in *; auto. Qed.

Definition finv (f : list nat -> Z) : Prop :=
  forall c, valid g c -> f c = C_UNCALCULATED \/
    (is_min c (f c) /\ forall p, is_ending c = false -> step g c p -> f p <> C_UNCALCULATED).

Definition fext (f f' : list nat -> Z) : Prop :=
  forall c, valid g c -> f c <> C_UNCALCULATED -> f' c = f c.

Lemma fext_refl : forall f, fext f f.
Proof. intros f c _ _. reflexivity. Qed.
Lemma fext_trans : forall f1 f2 f3, fext f1 f2 -> fext f2 f3 -> fext f1 f3.
Proof.
  intros f1 f2 f3 H1 H2 c Hv Hc. rewrite <- (H1 c Hv Hc). apply H2; [exact Hv|].
  rewrite (H1 c Hv Hc). exact Hc.
Qed.

Lemma fset_same : forall f c v, fset f c v c = v.
Proof. intros. unfold fset. destruct (coord_dec c c); congruence. Qed.

Lemma finv_min : forall f c, finv f -> valid g c -> f c <> C_UNCALCULATED -> is_min c (f c).
Proof. intros f c Hi Hv Hc. destruct (Hi c Hv) as [H|[H _]]; [contradiction|exact H]. Qed.

Lemma step_valid : forall c p, valid g c -> step g c p -> valid g p.
Proof. intros c p Hv [Hc _]. eapply cand_valid; eassumption. Qed.

(** Storing a minimal value whose predecessors are stored preserves the invariant. *)
Lemma finv_set : forall f c v, finv f -> valid g c -> is_min c v ->
  (forall p, is_ending c = false -> step g c p -> f p <> C_UNCALCULATED) ->
  finv (fset f c v) /\ fext f (fset f c v).
Proof.
  intros f c v Hi Hv Hm Hp.
  assert (Hv0 : v <> C_UNCALCULATED).
  { pose proof (is_min_nonneg c v Hv Hm). unfold C_UNCALCULATED. lia. }
  split.
  - intros x Hx. unfold fset at 1 2. destruct (coord_dec x c) as [->|Hne].
    + right. split; [exact Hm|]. intros p He Hs. unfold fset.
      destruct (coord_dec p c); [exact Hv0|]. apply Hp; assumption.
    + destruct (Hi x Hx) as [H|[H1 H2]]; [now left|]. right. split; [exact H1|].
      intros p He Hs. unfold fset. destruct (coord_dec p c); [exact Hv0|]. apply H2; assumption.
  - intros x Hx Hxc. unfold fset. destruct (coord_dec x c) as [->|]; [|reflexivity].
    apply (is_min_unique c); [exact Hm|]. apply finv_min; assumption.
Qed.

Definition min_over (c : list nat) (f : list nat -> Z) (l : list (list nat)) (v : Z) : Prop :=
  (exists p, In p l /\ v = f p + cc c p)%Z /\ forall p, In p l -> (v <= f p + cc c p)%Z.

Definition calc_post (f : list nat -> Z) (c : list nat) (r : Z * cs_state S) : Prop :=
  exists f', rep (snd r) f' /\ finv f' /\ fext f f' /\ is_min c (fst r) /\
    forall p, is_ending c = false -> step g c p -> f' p <> C_UNCALCULATED.

Lemma min_loop_ok : forall rec c,
  valid g c ->
  (forall s f p, step g c p -> rep s f -> finv f -> outcome (rec s p) (calc_post f p)) ->
  forall l dn mincost s f,
  (forall p, In p l -> step g c p) ->
  (forall p, In p dn -> step g c p) ->
  rep s f -> finv f ->
  (forall p, In p dn -> f p <> C_UNCALCULATED) ->
  (dn = [] /\ mincost = C_UNCALCULATED \/ min_over c f dn mincost) ->
  (dn <> [] \/ l <> []) ->
  outcome (min_loop S g rec c l mincost s)
    (fun r => exists f', rep (snd r) f' /\ finv f' /\ fext f f' /\
       min_over c f' (dn ++ l) (fst r) /\ forall p, In p (dn ++ l) -> f' p <> C_UNCALCULATED).
Proof.
  intros rec c Hv Hrec. induction l as [|p l IH]; intros dn mincost s f Hl Hdn Hrep Hi Hset Hmin Hne.
  - cbn [min_loop outcome]. exists f. rewrite app_nil_r. cbn [fst snd].
    split; [exact Hrep|]. split; [exact Hi|]. split; [apply fext_refl|]. split; [|exact Hset].
    destruct Hmin as [[-> _]|H]; [|exact H]. destruct Hne; congruence.
  - cbn [min_loop].
    assert (Hsp : step g c p) by (apply Hl; now left).
    pose proof (step_valid c p Hv ltac:(assumption)) as Hvp.
    eapply outcome_bind; [apply (get_ok s f p Hrep Hvp)|].
    intros [c0 s0] [Hc0 Hs0]. cbn [fst snd] in Hc0, Hs0. cbn beta iota.
    eapply outcome_bind with (P := fun r => exists f1, rep (snd r) f1 /\ finv f1 /\ fext f f1 /\
       fst r = f1 p /\ f1 p <> C_UNCALCULATED).
    { destruct (Z.eqb_spec c0 C_UNCALCULATED) as [E|E].
      - eapply outcome_bind; [apply (Hrec s0 f p Hsp Hs0 Hi)|].
        intros [c1 s1] (f1 & Hr1 & Hi1 & Hx1 & Hm1 & Hp1). cbn [fst snd] in *. cbn beta iota.
        assert (H0 : (0 <= c1)%Z) by (eapply is_min_nonneg; eassumption).
        eapply outcome_bind; [apply (set_ok s1 f1 p c1 Hr1 Hvp H0)|].
        intros s2 Hr2. cbn [outcome fst snd].
        destruct (finv_set f1 p c1 Hi1 Hvp Hm1 Hp1) as [Hi2 Hx2].
        exists (fset f1 p c1). split; [assumption|]. split; [assumption|].
        split; [eapply fext_trans; eassumption|]. rewrite fset_same. split; [reflexivity|].
        unfold C_UNCALCULATED. lia.
      - cbn [outcome fst snd]. exists f. split; [assumption|]. split; [assumption|]. split; [apply fext_refl|].
        split; [exact Hc0|]. rewrite <- Hc0. exact E. }
    intros [cost s1] (f1 & Hr1 & Hi1 & Hx1 & Hc1 & Hn1). cbn [fst snd] in *. cbn beta iota.
    destruct (transition_ok c p Hv (proj1 Hsp)) as (Htc & Htc0 & _).
    rewrite Htc. cbn [rbind]. cbn zeta. fold (cc c p).
    assert (Hmp : is_min p (f1 p)) by (apply finv_min; assumption).
    pose proof (is_min_nonneg p _ Hvp Hmp) as H0.
    set (newmin := if (mincost =? C_UNCALCULATED)%Z then (cost + cc c p)%Z
                   else if (cost + cc c p <? mincost)%Z then (cost + cc c p)%Z else mincost).
    eapply outcome_mono; [apply (IH (dn ++ [p]) newmin s1 f1)|].
    + intros q Hq. apply Hl. now right.
    + intros q Hq. apply in_app_or in Hq. destruct Hq as [Hq|[<-|[]]]; auto.
    + exact Hr1.
    + exact Hi1.
    + intros q Hq. apply in_app_or in Hq. destruct Hq as [Hq|[<-|[]]]; [|exact Hn1].
      rewrite Hx1; [apply Hset; exact Hq| |apply Hset; exact Hq].
      eapply step_valid; [exact Hv|apply Hdn; exact Hq].
    + right. assert (Hfe : forall q, In q dn -> f1 q = f q).
      { intros q Hq. apply Hx1; [eapply step_valid; [exact Hv|apply Hdn; exact Hq]|apply Hset; exact Hq]. }
      unfold newmin. destruct Hmin as [[-> ->]|[(q & Hq & Hqv) Hqm]].
      * rewrite Z.eqb_refl. rewrite Hc1. split.
        -- exists p. split; [now left|reflexivity].
        -- intros q [<-|[]]. lia.
      * assert (Hmc : (0 <= mincost)%Z).
        { rewrite Hqv. rewrite <- (Hfe q Hq).
          assert (Hsq : step g c q) by (apply Hdn; exact Hq).
          assert (Hvq : valid g q) by (exact (step_valid c q Hv Hsq)).
          assert (is_min q (f1 q)).
          { apply finv_min; [exact Hi1|exact Hvq|]. rewrite (Hfe q Hq). apply Hset. exact Hq. }
          pose proof (is_min_nonneg q _ Hvq H).
          destruct (transition_ok c q Hv (proj1 Hsq)) as (_ & H2 & _). unfold cc. lia. }
        destruct (Z.eqb_spec mincost C_UNCALCULATED) as [E|_]; [unfold C_UNCALCULATED in E; lia|].
        destruct (Z.ltb_spec (cost + cc c p) mincost) as [Hlt|Hge].
        -- split.
           ++ exists p. split; [apply in_or_app; right; now left|rewrite Hc1; reflexivity].
           ++ intros r Hr. apply in_app_or in Hr. destruct Hr as [Hr|[<-|[]]].
              ** rewrite (Hfe r Hr). specialize (Hqm r Hr). lia.
              ** lia.
        -- split.
           ++ exists q. split; [apply in_or_app; now left|]. rewrite (Hfe q Hq). exact Hqv.
           ++ intros r Hr. apply in_app_or in Hr. destruct Hr as [Hr|[<-|[]]].
              ** rewrite (Hfe r Hr). apply Hqm. exact Hr.
              ** lia.
    + left. destruct dn; discriminate.
    + cbn beta. intros r (f' & Hr' & Hi' & Hx' & Hm' & Hs'). rewrite <- app_assoc in Hm', Hs'.
      exists f'. split; [assumption|]. split; [assumption|]. split; [eapply fext_trans; eassumption|].
      split; assumption.
Qed.

Lemma calculate_ok : forall rank,
  (forall d t p, In d (g_dims g) -> In t (d_toks d) -> In p (d_toks d) ->
     In p (te_prec (g_env g) t) -> rank p < rank t) ->
  forall fuel c s f, valid g c -> rep s f -> finv f -> mu rank (g_dims g) c < fuel ->
  outcome (calculate_cost S g fuel s c) (calc_post f c).
Proof.
  intros rank Hr. induction fuel as [|fuel IH]; intros c s f Hv Hrep Hi Hmu; [lia|].
  cbn [calculate_cost].
  destruct (previous_coordinates_spec g Hwf c Hv) as (l & -> & Hl). cbn [rbind].
  destruct (is_ending c) eqn:He.
  - assert (l = []) as ->.
    { destruct l as [|p l]; [reflexivity|]. exfalso.
      assert (In p (p :: l)) as H by now left. apply Hl in H. destruct H; discriminate. }
    cbn [outcome]. exists f. cbn [fst snd]. split; [assumption|]. split; [assumption|]. split; [apply fext_refl|].
    split; [apply is_min_end; exact He|]. intros p H. congruence.
  - destruct (no_dead_end g Hwf c Hv He) as (p0 & Hp0).
    assert (Hin : In p0 l) by (apply Hl; auto).
    assert (Hlne : l <> []) by (intros ->; destruct Hin).
    assert (G : outcome (min_loop S g (calculate_cost S g fuel) c l C_UNCALCULATED s) (calc_post f c)).
    { eapply outcome_mono; [apply (min_loop_ok (calculate_cost S g fuel) c Hv) with (dn := []) (f := f)|].
      - intros s' f' p Hs Hrep' Hi'. apply IH; auto; [eapply step_valid; eassumption|].
        pose proof (cand_mu g Hwf rank c p Hr (proj1 Hs)). lia.
      - intros p Hp. apply Hl. exact Hp.
      - intros p [].
      - exact Hrep.
      - exact Hi.
      - intros p [].
      - left. split; reflexivity.
      - right. exact Hlne.
      - cbn beta. intros r (f' & Hr' & Hi' & Hx' & Hm' & Hs').
        cbn [app] in Hm', Hs'. exists f'. split; [assumption|]. split; [assumption|]. split; [assumption|]. split.
        + destruct Hm' as [(p & Hp & Hpv) Hmin]. apply (is_min_step c _ f' He).
          * intros q Hq. apply finv_min; [exact Hi'|eapply step_valid; eassumption|].
            apply Hs'. apply Hl. auto.
          * exists p. split; [apply Hl; exact Hp|exact Hpv].
          * intros q Hq. apply Hmin. apply Hl. auto.
        + intros p _ Hp. apply Hs'. apply Hl. auto. }
    destruct l as [|p l]; [congruence|exact G].
Qed.

Lemma fill_loop_ok : forall rank fuel,
  (forall d t p, In d (g_dims g) -> In t (d_toks d) -> In p (d_toks d) ->
     In p (te_prec (g_env g) t) -> rank p < rank t) ->
  forall starts s f,
  (forall c, In c starts -> valid g c /\ mu rank (g_dims g) c < fuel) -> rep s f -> finv f ->
  outcome (fill_loop S g fuel starts s)
    (fun s' => exists f', rep s' f' /\ finv f' /\ fext f f' /\
       forall c, In c starts -> f' c <> C_UNCALCULATED).
Proof.
  intros rank fuel Hr. induction starts as [|c starts IH]; intros s f Hst Hrep Hi; cbn [fill_loop].
  - cbn [outcome]. exists f. split; [assumption|]. split; [assumption|]. split; [apply fext_refl|]. intros c [].
  - destruct (Hst c (or_introl eq_refl)) as [Hv Hmu].
    eapply outcome_bind; [apply (get_ok s f c Hrep Hv)|].
    intros [v s1] [Hv1 Hs1]. cbn [fst snd] in Hv1, Hs1. cbn beta iota.
    eapply outcome_bind with (P := fun s' => exists f1, rep s' f1 /\ finv f1 /\ fext f f1 /\
       f1 c <> C_UNCALCULATED).
    { destruct (Z.eqb_spec v C_UNCALCULATED) as [E|E].
      - eapply outcome_bind; [apply (calculate_ok rank Hr fuel c s1 f Hv Hs1 Hi Hmu)|].
        intros [c1 s2] (f1 & Hr1 & Hi1 & Hx1 & Hm1 & Hp1). cbn [fst snd] in *. cbn beta iota.
        assert (H0 : (0 <= c1)%Z) by (eapply is_min_nonneg; eassumption).
        eapply outcome_mono; [apply (set_ok s2 f1 c c1 Hr1 Hv H0)|].
        cbn beta. intros s3 Hr3. destruct (finv_set f1 c c1 Hi1 Hv Hm1 Hp1) as [Hi2 Hx2].
        exists (fset f1 c c1). split; [assumption|]. split; [assumption|].
        split; [eapply fext_trans; eassumption|]. rewrite fset_same. unfold C_UNCALCULATED. lia.
      - cbn [outcome]. exists f. split; [assumption|]. split; [assumption|].
        split; [apply fext_refl|]. congruence. }
    intros s2 (f1 & Hr1 & Hi1 & Hx1 & Hc1).
    eapply outcome_mono; [apply (IH s2 f1)|].
    + intros c' Hc'. apply Hst. now right.
    + exact Hr1.
    + exact Hi1.
    + cbn beta. intros s' (f' & Hr' & Hi' & Hx' & Hs'). exists f'.
      split; [assumption|]. split; [assumption|]. split; [eapply fext_trans; eassumption|].
      intros c' [<-|Hc']; [|apply Hs'; exact Hc'].
      rewrite Hx'; assumption.
Qed.

(** ** Reading the result *)

Section Filled.
Variable f : list nat -> Z.
Hypothesis Hfi : finv f.

Lemma best_cost_ok : forall starts dn best s,
  (forall c, In c starts -> valid g c /\ f c <> C_UNCALCULATED) ->
  (forall c, In c dn -> valid g c /\ f c <> C_UNCALCULATED) ->
  rep s f ->
  (dn = [] /\ best = (-1)%Z \/ (exists c, In c dn /\ best = f c) /\ forall c, In c dn -> (best <= f c)%Z) ->
  (dn <> [] \/ starts <> []) ->
  outcome (best_cost_loop S starts best s)
    (fun r => rep (snd r) f /\ (exists c, In c (dn ++ starts) /\ fst r = f c) /\
       forall c, In c (dn ++ starts) -> (fst r <= f c)%Z).
Proof.
  induction starts as [|c starts IH]; intros dn best s Hst Hdn Hrep Hb Hne; cbn [best_cost_loop].
  - cbn [outcome fst snd]. rewrite app_nil_r. split; [exact Hrep|].
    destruct Hb as [[-> _]|H]; [destruct Hne; congruence|exact H].
  - destruct (Hst c (or_introl eq_refl)) as [Hv Hset].
    eapply outcome_bind; [apply (get_ok s f c Hrep Hv)|].
    intros [v s1] [Hv1 Hs1]. cbn [fst snd] in Hv1, Hs1. cbn beta iota.
    eapply outcome_mono; [apply (IH (dn ++ [c]))|].
    + intros c' H. apply Hst. now right.
    + intros c' H. apply in_app_or in H. destruct H as [H|[<-|[]]]; auto.
    + exact Hs1.
    + right. destruct Hb as [[-> ->]|[(q & Hq & Hqv) Hmin]].
      * rewrite Z.eqb_refl. split; [exists c; split; [now left|exact Hv1]|].
        intros c' [<-|[]]. lia.
      * assert (0 <= best)%Z.
        { destruct (Hdn q Hq) as [Hvq Hsq]. rewrite Hqv.
          eapply is_min_nonneg; [exact Hvq|]. apply finv_min; assumption. }
        destruct (Z.eqb_spec best (-1)); [lia|].
        destruct (Z.ltb_spec v best).
        -- split; [exists c; split; [apply in_or_app; right; now left|exact Hv1]|].
           intros c' H'. apply in_app_or in H'. destruct H' as [H'|[<-|[]]]; [|lia].
           specialize (Hmin c' H'). lia.
        -- split; [exists q; split; [apply in_or_app; now left|exact Hqv]|].
           intros c' H'. apply in_app_or in H'. destruct H' as [H'|[<-|[]]]; [|lia].
           apply Hmin. exact H'.
    + left. destruct dn; discriminate.
    + cbn beta. intros r (H1 & H2 & H3). rewrite <- app_assoc in H2, H3. auto.
Qed.

Lemma best_start_ok : forall starts dn best cur s,
  (forall c, In c starts -> valid g c /\ f c <> C_UNCALCULATED) ->
  (forall c, In c dn -> valid g c /\ f c <> C_UNCALCULATED) ->
  rep s f ->
  (dn = [] /\ best = (-1)%Z /\ cur = None \/
   (exists c, In c dn /\ best = f c /\ cur = Some c) /\ forall c, In c dn -> (best <= f c)%Z) ->
  (dn <> [] \/ starts <> []) ->
  outcome (best_start_loop S starts best cur s)
    (fun r => rep (snd r) f /\ exists c, fst r = Some c /\ In c (dn ++ starts) /\
       forall c', In c' (dn ++ starts) -> (f c <= f c')%Z).
Proof.
  induction starts as [|c starts IH]; intros dn best cur s Hst Hdn Hrep Hb Hne; cbn [best_start_loop].
  - cbn [outcome fst snd]. rewrite app_nil_r. split; [exact Hrep|].
    destruct Hb as [[-> _]|[(q & Hq & -> & ->) Hm]]; [destruct Hne; congruence|]. eauto.
  - destruct (Hst c (or_introl eq_refl)) as [Hv Hset].
    eapply outcome_bind; [apply (get_ok s f c Hrep Hv)|].
    intros [v s1] [Hv1 Hs1]. cbn [fst snd] in Hv1, Hs1. cbn beta iota.
    assert (Hdn' : forall c0, In c0 (dn ++ [c]) -> valid g c0 /\ f c0 <> C_UNCALCULATED).
    { intros c' H. apply in_app_or in H. destruct H as [H|[<-|[]]]; auto. }
    assert (Hne' : dn ++ [c] <> [] \/ starts <> []) by (left; destruct dn; discriminate).
    assert (Hst' : forall c0, In c0 starts -> valid g c0 /\ f c0 <> C_UNCALCULATED).
    { intros c' H. apply Hst. now right. }
    assert (Fin : forall best' cur',
      (exists c', In c' (dn ++ [c]) /\ best' = f c' /\ cur' = Some c') /\
      (forall c', In c' (dn ++ [c]) -> (best' <= f c')%Z) ->
      outcome (best_start_loop S starts best' cur' s1)
        (fun r => rep (snd r) f /\ exists c0, fst r = Some c0 /\ In c0 (dn ++ c :: starts) /\
          forall c', In c' (dn ++ c :: starts) -> (f c0 <= f c')%Z)).
    { intros best' cur' H. eapply outcome_mono; [apply (IH (dn ++ [c]))|]; auto.
      cbn beta. intros r (H1 & c0 & H2 & H3 & H4). rewrite <- app_assoc in H3, H4.
      split; [exact H1|]. exists c0. auto. }
    destruct Hb as [(-> & -> & ->)|[(q & Hq & Hqv & ->) Hmin]].
    + rewrite Z.eqb_refl. apply Fin. split; [exists c; repeat split; auto; now left|].
      intros c' [<-|[]]. lia.
    + assert (0 <= best)%Z.
      { destruct (Hdn q Hq) as [Hvq Hsq]. rewrite Hqv.
        eapply is_min_nonneg; [exact Hvq|]. apply finv_min; assumption. }
      destruct (Z.eqb_spec best (-1)); [lia|].
      destruct (Z.ltb_spec v best); apply Fin.
      * split; [exists c; repeat split; auto; apply in_or_app; right; now left|].
        intros c' H'. apply in_app_or in H'. destruct H' as [H'|[<-|[]]]; [|lia].
        specialize (Hmin c' H'). lia.
      * split; [exists q; repeat split; auto; apply in_or_app; now left|].
        intros c' H'. apply in_app_or in H'. destruct H' as [H'|[<-|[]]]; [|lia].
        apply Hmin. exact H'.
Qed.

Lemma best_prev_loop_ok : forall c, valid g c ->
  forall l dn bestcost best two s,
  (forall p, In p l -> step g c p /\ f p <> C_UNCALCULATED) ->
  (forall p, In p dn -> step g c p /\ f p <> C_UNCALCULATED) ->
  rep s f ->
  (dn = [] /\ bestcost = (-1)%Z /\ best = None \/
   (exists p, In p dn /\ bestcost = f p + cc c p /\ best = Some p)%Z /\
   forall p, In p dn -> (bestcost <= f p + cc c p)%Z) ->
  (dn <> [] \/ l <> []) ->
  outcome (best_prev_loop S g c l bestcost best two s)
    (fun r => rep (snd r) f /\ exists p, fst r = Some p /\ In p (dn ++ l) /\
       forall q, In q (dn ++ l) -> (f p + cc c p <= f q + cc c q)%Z).
Proof.
  intros c Hv. induction l as [|p l IH]; intros dn bestcost best two s Hl Hdn Hrep Hb Hne; cbn [best_prev_loop].
  - cbn [outcome fst snd]. rewrite app_nil_r. split; [exact Hrep|].
    destruct Hb as [[-> _]|[(q & Hq & -> & ->) Hm]]; [destruct Hne; congruence|]. eauto.
  - destruct (Hl p (or_introl eq_refl)) as [Hs Hset].
    pose proof (step_valid c p Hv ltac:(assumption)) as Hvp.
    eapply outcome_bind; [apply (get_ok s f p Hrep Hvp)|].
    intros [v s1] [Hv1 Hs1]. cbn [fst snd] in Hv1, Hs1. cbn beta iota.
    destruct (transition_ok c p Hv (proj1 Hs)) as (-> & _ & _). cbn [rbind]. cbn zeta.
    fold (cc c p). rewrite Hv1.
    assert (Hdn' : forall c0, In c0 (dn ++ [p]) -> step g c c0 /\ f c0 <> C_UNCALCULATED).
    { intros c' H. apply in_app_or in H. destruct H as [H|[<-|[]]]; auto. }
    assert (Hne' : dn ++ [p] <> [] \/ l <> []) by (left; destruct dn; discriminate).
    assert (Hl' : forall c0, In c0 l -> step g c c0 /\ f c0 <> C_UNCALCULATED).
    { intros c' H. apply Hl. now right. }
    assert (Fin : forall best' cur' two',
      (exists c', In c' (dn ++ [p]) /\ best' = (f c' + cc c c')%Z /\ cur' = Some c') /\
      (forall c', In c' (dn ++ [p]) -> (best' <= f c' + cc c c')%Z) ->
      outcome (best_prev_loop S g c l best' cur' two' s1)
        (fun r => rep (snd r) f /\ exists c0, fst r = Some c0 /\ In c0 (dn ++ p :: l) /\
          forall c', In c' (dn ++ p :: l) -> (f c0 + cc c c0 <= f c' + cc c c')%Z)).
    { intros best' cur' two' H. eapply outcome_mono; [apply (IH (dn ++ [p]))|]; auto.
      cbn beta. intros r (H1 & c0 & H2 & H3 & H4). rewrite <- app_assoc in H3, H4.
      split; [exact H1|]. exists c0. auto. }
    destruct Hb as [(-> & -> & ->)|[(q & Hq & Hqv & ->) Hmin]].
    + rewrite Z.eqb_refl. apply Fin. split; [exists p; repeat split; auto; now left|].
      intros c' [<-|[]]. lia.
    + assert (0 <= bestcost)%Z.
      { destruct (Hdn q Hq) as [Hsq Hnq]. rewrite Hqv.
        assert (Hvq : valid g q) by (exact (step_valid c q Hv Hsq)).
        assert (0 <= f q)%Z by (eapply is_min_nonneg; [exact Hvq|]; apply finv_min; assumption).
        destruct (transition_ok c q Hv (proj1 Hsq)) as (_ & H2 & _). unfold cc. lia. }
      assert (New : (f p + cc c p <= bestcost)%Z ->
        (exists c', In c' (dn ++ [p]) /\ (f p + cc c p)%Z = (f c' + cc c c')%Z /\ Some p = Some c') /\
        (forall c', In c' (dn ++ [p]) -> (f p + cc c p <= f c' + cc c c')%Z)).
      { intros Hle. split; [exists p; repeat split; auto; apply in_or_app; right; now left|].
        intros c' H'. apply in_app_or in H'. destruct H' as [H'|[<-|[]]]; [|lia].
        specialize (Hmin c' H'). lia. }
      destruct (Z.eqb_spec bestcost (-1)); [lia|].
      destruct (Z.ltb_spec (f p + cc c p) bestcost); [apply Fin; apply New; lia|].
      destruct ((f p + cc c p =? bestcost)%Z && negb two && (2 <=? List.length (changed c p))) eqn:E.
      * apply andb_prop in E. destruct E as [E _]. apply andb_prop in E. destruct E as [E _].
        apply Z.eqb_eq in E. apply Fin. apply New. lia.
      * apply Fin. split; [exists q; repeat split; auto; apply in_or_app; now left|].
        intros c' H'. apply in_app_or in H'. destruct H' as [H'|[<-|[]]]; [|lia].
        apply Hmin. exact H'.
Qed.

Lemma best_prev_ok : forall c s, valid g c -> f c <> C_UNCALCULATED -> rep s f ->
  outcome (best_prev S g c s)
    (fun r => rep (snd r) f /\
       (is_ending c = true /\ fst r = None \/
        is_ending c = false /\ exists p, fst r = Some p /\ step g c p /\ f p <> C_UNCALCULATED /\
          f c = (f p + cc c p)%Z)).
Proof.
  intros c s Hv Hset Hrep. unfold best_prev.
  destruct (is_ending c) eqn:He; [cbn [outcome fst snd]; auto|].
  destruct (previous_coordinates_spec g Hwf c Hv) as (l & -> & Hl). cbn [rbind].
  destruct (no_dead_end g Hwf c Hv He) as (p0 & Hp0).
  assert (Hin : In p0 l) by (apply Hl; auto).
  destruct (Hfi c Hv) as [H|[Hmin Hps]]; [contradiction|].
  eapply outcome_mono; [apply (best_prev_loop_ok c Hv l [])|].
  - intros p Hp. apply Hl in Hp. destruct Hp as [_ Hp]. auto.
  - intros p [].
  - exact Hrep.
  - left. auto.
  - right. intros ->. destruct Hin.
  - cbn beta. cbn [app]. intros r (Hr & p & Hp & Hpl & Hpm). split; [exact Hr|]. right. split; [reflexivity|].
    apply Hl in Hpl. destruct Hpl as [_ Hps']. exists p. repeat split; auto; [apply Hps'|apply Hps'|].
    destruct (is_min_attained c (f c) f He Hmin) as [(q & Hq & Hqv) Hle].
    { intros q Hq. apply finv_min; [exact Hfi|eapply step_valid; eassumption|]. auto. }
    specialize (Hle p Hps'). specialize (Hpm q (proj2 (Hl q) (conj He Hq))). lia.
Qed.

Lemma trace_ok : forall rank,
  (forall d t p, In d (g_dims g) -> In t (d_toks d) -> In p (d_toks d) ->
     In p (te_prec (g_env g) t) -> rank p < rank t) ->
  forall fuel c acc s, valid g c -> f c <> C_UNCALCULATED -> rep s f ->
  mu rank (g_dims g) c < fuel ->
  outcome (trace_loop S g fuel c acc s)
    (fun r => rep (snd r) f /\ exists al, fst r = al ++ acc /\ walk c al /\ alignment_cost g al = f c).
Proof.
  intros rank Hr. induction fuel as [|fuel IH]; intros c acc s Hv Hset Hrep Hmu; [lia|].
  cbn [trace_loop].
  eapply outcome_bind; [apply (best_prev_ok c s Hv Hset Hrep)|].
  intros [b s1] [Hs1 Hb]. cbn [fst snd] in Hs1, Hb. cbn beta iota.
  destruct Hb as [[He ->]|(He & p & -> & Hs & Hsetp & Hcost)].
  - cbn [outcome fst snd]. split; [exact Hs1|]. exists []. split; [reflexivity|].
    split; [constructor; exact He|]. cbn [alignment_cost].
    symmetry. apply (is_min_unique c); [apply finv_min; assumption|apply is_min_end; exact He].
  - eapply outcome_mono; [apply (IH p)|].
    + eapply step_valid; eassumption.
    + exact Hsetp.
    + exact Hs1.
    + pose proof (cand_mu g Hwf rank c p Hr (proj1 Hs)). lia.
    + cbn beta. intros r (Hr' & al & Hal & Hw & Hc). split; [exact Hr'|].
      exists (al ++ [column_of g c p]). rewrite <- app_assoc. split; [exact Hal|].
      split; [constructor; assumption|]. rewrite alignment_cost_snoc, Hc, Hcost. reflexivity.
Qed.

End Filled.
End Store.
End WF.
