(** The search over the plain matrix. *)
From Coq Require Import List ZArith Arith Bool String Lia.
From Verif Require Import Base Matrix_Model Matrix_Spec Matrix_Proofs Graph_Model Graph_Spec
  Graph_Proofs1 Graph_Proofs2 Graph_Proofs3 Graph_Proofs4.
Import ListNotations.
Open Scope res_scope.

Lemma bound_exists : forall (f : list nat -> nat) l, exists N, forall c, In c l -> f c < N.
Proof.
  intros f. induction l as [|c l [N IH]]; [exists 0; intros c []|].
  exists (S (f c) + N). intros c' [<-|H]; [lia|]. specialize (IH c' H). lia.
Qed.

(** The whole search over any store with a functional reading. *)
Section Generic.
Variable g : graph.
Hypothesis Hwf : wf_graph g.
Variable S : cost_store.
Variable allow_fail : Prop.
Variable rep : cs_state S -> (list nat -> Z) -> Prop.
Hypothesis get_ok : forall s f c, rep s f -> valid g c ->
  outcome allow_fail (cs_get S s c) (fun r => fst r = f c /\ rep (snd r) f).
Hypothesis set_ok : forall s f c v, rep s f -> valid g c -> (0 <= v)%Z ->
  outcome allow_fail (cs_set S s c v) (fun s' => rep s' (fset f c v)).
Variable s0 : cs_state S.
Hypothesis s0_ok : rep s0 (fun _ => C_UNCALCULATED).

Lemma search_generic : exists N, forall fuel, N <= fuel ->
  outcome allow_fail
    (let* s := fill_graph S g fuel s0 in
     let* (best, s1) := get_best_cost S g s in
     let* (al, s2) := retrieve_alignment S g fuel s1 in
     Ok (best, al))
    (fun r => is_alignment g (snd r) /\ alignment_cost g (snd r) = fst r /\
       (no_pruning g -> forall al, is_alignment g al -> (fst r <= alignment_cost g al)%Z)).
Proof.
  pose proof Hwf as (_ & (rank & Hr) & _).
  destruct (bound_exists (mu rank (g_dims g)) (starting_coordinates g)) as [N HN].
  exists N. intros fuel HF.
  eapply outcome_bind; [eapply (fill_loop_ok g Hwf S allow_fail rep get_ok set_ok rank fuel Hr
    (starting_coordinates g) s0 (fun _ => C_UNCALCULATED))|].
  - intros c Hc. split; [apply starts_valid; assumption|]. specialize (HN c Hc). lia.
  - exact s0_ok.
  - intros c _. left. reflexivity.
  - intros s (f & Hrep & Hi & _ & Hset).
    assert (Hst : forall c, In c (starting_coordinates g) -> valid g c /\ f c <> C_UNCALCULATED).
    { intros c Hc. split; [apply starts_valid; assumption|apply Hset; exact Hc]. }
    eapply outcome_bind; [eapply (best_cost_ok g Hwf S allow_fail rep get_ok f Hi
      (starting_coordinates g) [] (-1)%Z s Hst)|].
    + intros c [].
    + exact Hrep.
    + left. auto.
    + right. apply starts_nonempty.
    + cbn [app]. intros [best s1] (Hrep1 & (cb & Hcb & Hbest) & Hmin). cbn [fst snd] in *. cbn beta iota.
      unfold retrieve_alignment.
      eapply outcome_bind with (P := fun r => exists al c, fst r = al /\ In c (starting_coordinates g) /\
        walk g c al /\ alignment_cost g al = f c /\ (f c <= f cb)%Z).
      { eapply outcome_bind; [eapply (best_start_ok g Hwf S allow_fail rep get_ok f Hi
          (starting_coordinates g) [] (-1)%Z None s1 Hst)|].
        - intros c [].
        - exact Hrep1.
        - left. auto.
        - right. apply starts_nonempty.
        - cbn [app]. intros [b s2] (Hrep2 & c & Hb & Hc & Hcm). cbn [fst snd] in *. subst b. cbn beta iota.
          eapply outcome_mono; [eapply (trace_ok g Hwf S allow_fail rep get_ok f Hi rank Hr fuel c [] s2)|].
          + apply Hst. exact Hc.
          + apply Hst. exact Hc.
          + exact Hrep2.
          + specialize (HN c Hc). lia.
          + cbn beta. intros r (_ & al & Hal & Hw & Hcost). rewrite app_nil_r in Hal.
            exists al, c. specialize (Hcm cb Hcb). auto. }
      intros [al s2] (al' & c & Hal & Hc & Hw & Hcost & Hle). cbn [fst snd] in *. subst al'.
      cbn [outcome fst snd].
      split; [eapply walk_start_alignment; eassumption|].
      split; [specialize (Hmin c Hc); lia|].
      intros Hnp al' Hal'. destruct (alignment_has_walk g Hwf Hnp al' Hal') as (c' & Hc' & Hw').
      specialize (Hmin c' Hc'). destruct (Hst c' Hc') as [Hv' Hs'].
      pose proof (finv_min g f c' Hi Hv' Hs') as [_ Hm]. specialize (Hm al' Hw'). lia.
Qed.
End Generic.

(** ** The plain matrix *)

Definition array_rep (g : graph) (m : array_matrix) (f : list nat -> Z) : Prop :=
  exists ws, Forall (fun w => in_range (map deep (g_dims g)) (fst w)) ws /\
    array_run (new_array_store g) ws = Some m /\
    forall c, valid g c -> f c = value_after ws c.

Lemma valid_in_range : forall g c, valid g c -> in_range (map deep (g_dims g)) c.
Proof.
  intros g c H. unfold valid in H. unfold in_range.
  induction H as [|d k ds c Hk H IH]; simpl; constructor; [unfold deep; lia|exact IH].
Qed.

Lemma array_get_ok : forall g s f c, array_rep g s f -> valid g c ->
  outcome False (cs_get array_store s c) (fun r => fst r = f c /\ array_rep g (snd r) f).
Proof.
  intros g s f c (ws & HF & Hrun & Hf) Hv.
  destruct (array_store_proof _ ws c HF (valid_in_range g c Hv)) as (m & Hm & Hget).
  unfold new_array_store in Hrun. rewrite Hrun in Hm. injection Hm as <-.
  cbn [cs_get array_store]. rewrite Hget. cbn [outcome fst snd].
  split; [symmetry; apply Hf; exact Hv|]. exists ws. auto.
Qed.

Lemma array_set_ok : forall g s f c v, array_rep g s f -> valid g c -> (0 <= v)%Z ->
  outcome False (cs_set array_store s c v) (fun s' => array_rep g s' (fset f c v)).
Proof.
  intros g s f c v (ws & HF & Hrun & Hf) Hv _.
  assert (HF' : Forall (fun w => in_range (map deep (g_dims g)) (fst w)) (ws ++ [(c, v)])).
  { apply Forall_app. split; [exact HF|]. constructor; [apply valid_in_range; exact Hv|constructor]. }
  destruct (array_run_inv _ _ HF') as (m & Hm & _).
  rewrite array_run_snoc in Hm. unfold new_array_store in Hrun. rewrite Hrun in Hm.
  cbn [cs_set array_store]. rewrite Hm. cbn [outcome].
  exists (ws ++ [(c, v)]). split; [exact HF'|]. split.
  - unfold new_array_store. rewrite array_run_snoc, Hrun. exact Hm.
  - intros c' Hv'. unfold value_after, fset. rewrite last_write_snoc.
    destruct (coord_dec c' c) as [->|Hne].
    + destruct (coord_eq_dec c c); congruence.
    + destruct (coord_eq_dec c c'); [congruence|]. apply Hf. exact Hv'.
Qed.

Lemma array_search : forall g, wf_graph g -> exists N, forall fuel, N <= fuel ->
  exists s best s1 al s2,
    fill_graph array_store g fuel (new_array_store g) = Ok s /\
    get_best_cost array_store g s = Ok (best, s1) /\
    retrieve_alignment array_store g fuel s1 = Ok (al, s2) /\
    is_alignment g al /\ alignment_cost g al = best /\
    (no_pruning g -> forall al', is_alignment g al' -> (best <= alignment_cost g al')%Z).
Proof.
  intros g Hwf.
  destruct (search_generic g Hwf array_store False (array_rep g) (array_get_ok g) (array_set_ok g)
    (new_array_store g)) as [N HN].
  { exists []. split; [constructor|]. split; [reflexivity|]. intros c _. reflexivity. }
  exists N. intros fuel HF. specialize (HN fuel HF).
  destruct (fill_graph array_store g fuel (new_array_store g)) as [s| | |] eqn:E1; try contradiction.
  cbn [rbind] in HN.
  destruct (get_best_cost array_store g s) as [[best s1]| | |] eqn:E2; try contradiction.
  cbn [rbind] in HN. cbn beta iota in HN.
  destruct (retrieve_alignment array_store g fuel s1) as [[al s2]| | |] eqn:E3; try contradiction.
  cbn [rbind outcome fst snd] in HN.
  exists s, best, s1, al, s2. repeat (split; [assumption || reflexivity|]). exact HN.
Qed.

(** ** Words of a retrieved alignment *)

Lemma linked_rank : forall (e : tok_env) (rank : nat -> nat) (d : dimension) ws,
  (forall t p, In t (d_toks d) -> In p (d_toks d) -> In p (te_prec e t) -> rank p < rank t) ->
  linked e ws -> (forall t, In t ws -> In t (d_toks d)) ->
  NoDup ws /\ forall a t, ws = a :: List.tl ws -> In t ws -> rank a <= rank t.
Proof.
  intros e rank d ws Hr. induction ws as [|a ws IH]; intros Hl Hin.
  - split; [constructor|]. discriminate.
  - destruct ws as [|b ws].
    + split; [constructor; [intros []|constructor]|].
      intros a' t E [<-|[]]. injection E as <-. lia.
    + destruct Hl as [Hab Hl]. destruct IH as [Hnd Hle]; [exact Hl|intros t Ht; apply Hin; now right|].
      assert (Hlt : rank a < rank b).
      { apply Hr; [apply Hin; right; now left|apply Hin; now left|exact Hab]. }
      assert (Hall : forall t, In t (b :: ws) -> rank a < rank t).
      { intros t Ht. specialize (Hle b t eq_refl Ht). lia. }
      split.
      * constructor; [|exact Hnd]. intros Ha. specialize (Hall a Ha). lia.
      * intros a' t E [<-|Ht]; injection E as <-; [lia|]. specialize (Hall t Ht). lia.
Qed.

Lemma complete_nodup : forall g d ws, wf_graph g -> In d (g_dims g) ->
  complete_path (g_env g) d ws -> NoDup ws.
Proof.
  intros g d ws Hwf Hd Hc. destruct ws as [|w ws]; [constructor|].
  destruct Hc as (_ & Hl & _ & Hin). destruct Hwf as (_ & (rank & Hr) & _).
  apply (linked_rank (g_env g) rank d (w :: ws)); [|exact Hl|exact Hin].
  intros t p. apply Hr. exact Hd.
Qed.

Lemma linear_words : forall e ts ws, NoDup ts ->
  (forall i t u, nth_error ts i = Some t -> nth_error ts (S i) = Some u -> te_prec e u = [t]) ->
  forall k, linked e ws -> ws <> [] -> nth_error ts k = Some (List.hd 0 ws) ->
  (forall t, In t ws -> In t ts) ->
  forall j, nth_error ts j = Some (List.last ws 0) ->
  (forall t p, nth_error ts 0 = Some t -> In p (te_prec e t) -> ~ In p ts) ->
  ws = firstn (S j - k) (skipn k ts).
Proof.
  intros e ts ws Hnd Hp. induction ws as [|a ws IH]; intros k Hl Hne Hk Hin j Hj H0; [congruence|].
  simpl in Hk. destruct ws as [|b ws].
  - simpl in Hj. assert (j = k).
    { eapply NoDup_nth_error; [exact Hnd|apply nth_error_Some; congruence|congruence]. }
    subst j. replace (S k - k) with 1 by lia.
    rewrite <- (firstn_skipn k ts) in Hk at 1.
    assert (Hlen : k < List.length ts) by (apply nth_error_Some; congruence).
    rewrite nth_error_app2 in Hk by (rewrite firstn_length; lia).
    rewrite firstn_length in Hk. replace (k - Nat.min k (List.length ts)) with 0 in Hk by lia.
    destruct (skipn k ts); [discriminate|]. injection Hk as ->. reflexivity.
  - destruct Hl as [Hab Hl].
    assert (Hb : In b ts) by (apply Hin; right; now left).
    apply In_nth_error in Hb. destruct Hb as [kb Hkb].
    assert (Hkb0 : kb <> 0).
    { intros ->. apply (H0 b a Hkb Hab). apply Hin. now left. }
    destruct kb as [|kb]; [congruence|].
    assert (Hkb' : kb < List.length ts).
    { assert (S kb < List.length ts) by (apply nth_error_Some; congruence). lia. }
    destruct (nth_error ts kb) as [a'|] eqn:Ea'; [|apply nth_error_None in Ea'; lia].
    rewrite (Hp kb a' b Ea' Hkb) in Hab. destruct Hab as [->|[]].
    assert (kb = k).
    { eapply NoDup_nth_error; [exact Hnd|exact Hkb'|congruence]. }
    subst kb.
    assert (Hjk : S k <= j).
    { (* the tail ends at j *) 
      destruct (le_lt_dec (S k) j) as [|Hlt]; [assumption|exfalso].
      assert (E : b :: ws = firstn (S j - S k) (skipn (S k) ts)).
      { apply (IH (S k)); auto; [discriminate|intros t Ht; apply Hin; now right]. }
      replace (S j - S k) with 0 in E by lia. discriminate. }
    replace (S j - k) with (S (S j - S k)) by lia.
    assert (E : skipn k ts = a :: skipn (S k) ts).
    { clear - Hk. revert k Hk. induction ts as [|t ts IH]; intros k Hk; [destruct k; discriminate|].
      destruct k as [|k]; [injection Hk as ->; reflexivity|]. apply IH. exact Hk. }
    rewrite E. cbn [firstn]. f_equal.
    apply (IH (S k)); auto; [discriminate|]. intros t Ht. apply Hin. now right.
Qed.

(** ** Dead ends *)

Lemma reached_valid : forall g c, wf_graph g -> reached g c -> valid g c.
Proof.
  intros g c Hwf H. induction H as [c Hc|c l p Hr IH Hl Hp]; [apply starts_valid; assumption|].
  destruct (previous_coordinates_spec g Hwf c IH) as (l' & E & Hl'). rewrite E in Hl. injection Hl as <-.
  apply Hl' in Hp. destruct Hp as [_ [Hc _]]. eapply cand_valid; eassumption.
Qed.

Lemma reached_no_dead_end : forall g c, wf_graph g -> reached g c ->
  exists l, previous_coordinates g c = Ok l /\ (l = [] <-> Forall (fun k => k = 0) c).
Proof.
  intros g c Hwf Hr. pose proof (reached_valid g c Hwf Hr) as Hv.
  destruct (previous_coordinates_spec g Hwf c Hv) as (l & E & Hl).
  exists l. split; [exact E|].
  assert (He : is_ending c = true <-> Forall (fun k => k = 0) c).
  { unfold is_ending. rewrite forallb_forall, Forall_forall. split; intros H x Hx; apply H in Hx.
    - apply Nat.eqb_eq. exact Hx.
    - apply Nat.eqb_eq. exact Hx. }
  rewrite <- He. split.
  - intros ->. destruct (is_ending c) eqn:E2; [reflexivity|exfalso].
    destruct (no_dead_end g Hwf c Hv E2) as [p Hp].
    apply (proj2 (Hl p)). auto.
  - intros E2. destruct l as [|p l]; [reflexivity|exfalso].
    assert (In p (p :: l)) as H by now left. apply Hl in H. destruct H. congruence.
Qed.

(** ** Linear speeches *)

Lemma nth_last : forall (l : list nat) t0 d, nth (List.length l) (t0 :: l) d = List.last (t0 :: l) d.
Proof.
  induction l as [|t l IH]; intros t0 d; [reflexivity|].
  change (nth (List.length (t :: l)) (t0 :: t :: l) d) with (nth (List.length l) (t :: l) d).
  rewrite IH. reflexivity.
Qed.

Lemma linear_all_words : forall g d ws, wf_graph g -> In d (g_dims g) ->
  linear_speech (g_env g) d -> complete_path (g_env g) d ws -> ws = d_toks d.
Proof.
  intros g d ws Hwf Hd Hlin Hc. destruct Hwf as (Hw & _).
  specialize (Hw d Hd). pose proof Hw as (Hfi & Hli & _ & Hfp & _).
  unfold linear_speech in Hlin. destruct (d_toks d) as [|t0 ts] eqn:Et.
  - destruct ws as [|w ws]; [reflexivity|]. destruct Hc as (_ & _ & _ & Hin).
    rewrite Et in Hin. destruct (Hin w (or_introl eq_refl)).
  - destruct Hlin as (Hnd & Hf & Hl & Hp).
    destruct ws as [|w ws].
    + simpl in Hc. rewrite Hl in Hc. discriminate.
    + cbn [complete_path] in Hc. destruct Hc as (Hcf & Hcl & Hcla & Hin).
      rewrite Hf in Hcf. destruct Hcf as [<-|[]].
      rewrite Hl in Hcla. destruct Hcla as [Hla|[]]. rewrite Et in Hin.
      assert (E : t0 :: ws = firstn (S (List.length ts) - 0) (skipn 0 (t0 :: ts))).
      { apply (linear_words (g_env g) (t0 :: ts) (t0 :: ws)); auto.
        - discriminate.
        - rewrite (last_dflt _ 0 t0) by discriminate. rewrite <- Hla.
          rewrite (nth_error_nth' _ t0) by (simpl; lia). f_equal.
          apply nth_last.
        - intros t p Ht Hpp. simpl in Ht. injection Ht as <-.
          intros Hpi. destruct (Hfp t0 p) as (f & Hf' & Hne); [rewrite Hf; now left|exact Hpp|exact Hpi|].
          rewrite Hf in Hf'. destruct Hf' as [<-|[]]. congruence. }
      rewrite E. simpl. f_equal. apply firstn_all.
Qed.
