(** The division of time costs loses nothing. *)
From Coq Require Import List ZArith Arith Bool String Lia.
From Verif Require Import Base Matrix_Model Matrix_Spec Matrix_Proofs Token_Model Token_Spec Token_Thm
  Graph_Model Graph_Spec Graph_Proofs1 Graph_Proofs2 Graph_Proofs3 Graph_Proofs4 Graph_Proofs5
  Ngraph_Model Ngraph_Spec Ngraph_Proofs1 Ngraph_Proofs2 Ngraph_Proofs3 Ngraph_Proofs4.
Import ListNotations.
Open Scope res_scope.

Lemma mul_divide : forall m p a b, (m | a)%Z -> (p | b)%Z -> (m * p | a * b)%Z.
Proof. intros m p a b [x ->] [y ->]. exists (x * y)%Z. ring. Qed.

Lemma lcp_le_divides : forall a b c d p q, largest_common_power a b p -> largest_common_power c d q ->
  (p <= q)%Z -> (p | c)%Z /\ (p | d)%Z.
Proof.
  intros a b c d p q (k & Hk & -> & _) (k' & Hk' & -> & Hc & Hd & _) Hle.
  assert (k <= k')%Z.
  { destruct (Z.le_gt_cases k k') as [L|L]; [exact L|]. exfalso.
    assert (10 ^ k' < 10 ^ k)%Z by (apply Z.pow_lt_mono_r; lia). lia. }
  assert (D : (10 ^ k | 10 ^ k')%Z).
  { exists (10 ^ (k' - k))%Z. rewrite <- Z.pow_add_r by lia. f_equal. lia. }
  split; eapply Z.divide_trans; eassumption.
Qed.

Lemma words_In : forall al col i t, In col al -> nth_error col i = Some (Some t) -> In t (words_of i al).
Proof.
  intros al col i t Hc Hi. unfold words_of. apply in_flat_map. exists col. split; [exact Hc|].
  rewrite Hi. now left.
Qed.

Lemma complete_In : forall e d ws t, complete_path e d ws -> In t ws -> In t (d_toks d).
Proof. intros e d [|w ws] t H Ht; [destruct Ht|]. destruct H as (_ & _ & _ & H). apply H. exact Ht. Qed.

Lemma legal_length : forall n r col, legal_column n r col -> List.length col = n.
Proof. intros n r col [H _]. exact H. Qed.

Section Exact.
Variable g : graph.
Hypothesis Htimed : timed_tokens g.
Hypothesis Hord : ordinary_times g.
Hypothesis Hpos : positive_prices g.
Hypothesis Hwhole : whole_prices g.
Variable dv : Z.
Hypothesis Hdv : time_unit g dv.
Let e := g_env g.
Let mp := Z.min (Z.min (Z.min (cf_trans (g_cfg g)) (cf_ins (g_cfg g))) (cf_opt (g_cfg g))) (cf_nonspk (g_cfg g)).

Definition real (t : nat) : Prop := In t (flat_map d_toks (g_dims g)).

Lemma unit_divides : exists p, dv = (mp * p)%Z /\
  forall t, real t -> (p | te_start e t)%Z /\ (p | te_end e t)%Z.
Proof.
  destruct Hdv as (t & p & Ht & Hp & Hmin & E). exists p. split; [exact E|].
  intros u Hu. destruct (token_divider g Htimed Hord u Hu) as (q & _ & Hq).
  eapply lcp_le_divides; [exact Hp|exact Hq|]. eapply Hmin; eassumption.
Qed.

Lemma column_real : forall al col i t,
  (forall i d, nth_error (g_dims g) i = Some d -> complete_path e d (words_of i al)) ->
  In col al -> List.length col = List.length (g_dims g) ->
  nth_error col i = Some (Some t) -> real t.
Proof.
  intros al col i t Hc Hin Hl Hi.
  assert (L : i < List.length (g_dims g)) by (rewrite <- Hl; apply nth_error_Some; congruence).
  destruct (nth_error (g_dims g) i) as [d|] eqn:Hd; [|apply nth_error_None in Hd; lia].
  apply in_flat_map. exists d. split; [eapply nth_error_In; exact Hd|].
  eapply complete_In; [apply (Hc i d Hd)|]. eapply words_In; eassumption.
Qed.

Lemma total_exact : forall (raw : list (option nat) -> Z) al,
  (forall col, In col al -> (dv | raw col)%Z) ->
  (dv * total (divided dv raw) al = total raw al)%Z.
Proof.
  intros raw al. destruct (time_unit_ok g Htimed Hord Hpos dv Hdv) as [_ Hd].
  induction al as [|col al IH]; intros H; unfold total in *; cbn [fold_right]; [lia|].
  rewrite Z.mul_add_distr_l, IH by (intros c Hc; apply H; now right).
  f_equal. unfold divided. destruct (H col (or_introl eq_refl)) as [k ->].
  rewrite Z.quot_mul by lia. ring.
Qed.

Lemma column_time_exact : cf_spk (g_cfg g) = false -> forall up al, is_alignment g al ->
  (dv * total (divided dv (column_time up g)) al = total (column_time up g) al)%Z.
Proof.
  intros Hspk up al [Hl Hc]. apply total_exact. intros col Hin.
  destruct unit_divides as (p & -> & Hp).
  rewrite Forall_forall in Hl. pose proof (legal_length _ _ _ (Hl col Hin)) as Hlen.
  assert (Hreal : forall i t, In (i, t) (entries col) -> real t).
  { intros i t Hi. apply (proj1 (entries_In g col i t)) in Hi. eapply column_real; eassumption. }
  destruct Hwhole as (W1 & W2 & W3). fold mp in W1, W2, W3.
  unfold column_time. destruct (entries col) as [|[i t] [|[j u] [|x r]]]; try apply Z.divide_0_r.
  - destruct (Hp t (Hreal i t (or_introl eq_refl))) as [D1 D2]. apply mul_divide; [|apply Z.divide_sub_r; assumption].
    unfold single_cost. destruct ((if (i <? g_ref g)%nat then cf_opt_hyp (g_cfg g) else cf_opt_ref (g_cfg g)) && te_optional (g_env g) t); assumption.
  - destruct (Hp t (Hreal i t (or_introl eq_refl))) as [D1 D2].
    destruct (Hp u (Hreal j u (or_intror (or_introl eq_refl)))) as [D3 D4].
    unfold time_pair_cost. rewrite Hspk. cbn [andb]. rewrite Z.add_0_r. apply mul_divide; [exact W1|].
    apply Z.divide_add_r; apply Z.divide_abs_r; apply Z.divide_sub_r; assumption.
Qed.

Lemma fold_divides : forall p (f : nat -> Z) (op : Z -> Z -> Z) r a,
  (forall x y, op x y = x \/ op x y = y) -> (p | a)%Z -> (forall t, In t r -> (p | f t)%Z) ->
  (p | fold_left (fun m u => op m (f u)) r a)%Z.
Proof.
  intros p f op. induction r as [|u r IH]; intros a Hop Ha Hr; [exact Ha|]. cbn [fold_left].
  apply IH; [exact Hop| |intros t Ht; apply Hr; now right].
  destruct (Hop a (f u)) as [->| ->]; [exact Ha|apply Hr; now left].
Qed.

Lemma nway_time_exact : forall al, nway_alignment g al ->
  (dv * total (divided dv (nway_time g)) al = total (nway_time g) al)%Z.
Proof.
  intros al [Hl Hc]. apply total_exact. intros col Hin.
  destruct unit_divides as (p & -> & Hp).
  rewrite Forall_forall in Hl. destruct (Hl col Hin) as [Hlen Hne].
  assert (Hreal : forall t, In t (tokens_of col) -> real t).
  { intros t Ht. unfold tokens_of in Ht. apply in_map_iff in Ht. destruct Ht as ([i t'] & <- & Hi).
    apply (proj1 (entries_In g col i t')) in Hi. cbn [snd]. eapply column_real; eassumption. }
  destruct Hwhole as (W1 & W2 & W3). fold mp in W1, W2, W3.
  unfold nway_time. cbv zeta. set (ts := tokens_of col) in *.
  assert (Hlast : In (List.last ts 0) ts) by (apply last_In'; exact Hne).
  destruct (Hp _ (Hreal _ Hlast)) as [D1 D2].
  assert (Hspan : (p | col_end e ts - col_begin e ts)%Z).
  { clear Hlast. destruct ts as [|t r]; [congruence|]. cbn [col_begin col_end].
    destruct (Hp t (Hreal t (or_introl eq_refl))) as [A B].
    apply Z.divide_sub_r.
    - apply (fold_divides p (te_end e) Z.max); [intros; lia|exact B|].
      intros u Hu. apply Hp. apply Hreal. now right.
    - apply (fold_divides p (te_start e) Z.min); [intros; lia|exact A|].
      intros u Hu. apply Hp. apply Hreal. now right. }
  fold e. apply Z.divide_add_r.
  - apply mul_divide; [destruct (te_optional e (List.last ts 0)); assumption|].
    apply Z.divide_mul_l. exact Hspan.
  - apply mul_divide; [exact W1|]. apply Z.divide_sub_r; [exact Hspan|]. apply Z.divide_sub_r; assumption.
Qed.
End Exact.

(** ** Lone optional tokens *)

Lemma lone_price : forall g c l p i t, wf_graph g -> valid g c ->
  previous_coordinates g c = Ok l -> In p l -> entries (column_of g c p) = [(i, t)] ->
  transition_cost g c p =
    Ok (if (if (i <? g_ref g)%nat then cf_opt_hyp (g_cfg g) else cf_opt_ref (g_cfg g)) && te_optional (g_env g) t
        then cf_opt (g_cfg g) else cf_ins (g_cfg g)).
Proof.
  intros g c l p i t Hwf Hv El Hp He.
  destruct (previous_coordinates_spec g Hwf c Hv) as (l' & El' & Hl). rewrite El in El'. injection El' as <-.
  apply Hl in Hp. destruct Hp as [_ [Hc _]].
  destruct (transition_ok g Hwf c p Hv Hc) as (Et & _).
  rewrite Et. unfold column_cost. rewrite He. reflexivity.
Qed.
