(** Walks of the search are the alignments of the segment group. *)
From Coq Require Import List ZArith Arith Bool String Lia.
From Verif Require Import Base Matrix_Model Matrix_Spec Matrix_Proofs Graph_Model Graph_Spec
  Graph_Proofs1 Graph_Proofs2 Graph_Proofs3.
Import ListNotations.
Open Scope res_scope.

Inductive ppath (e : tok_env) (d : dimension) : nat -> list nat -> Prop :=
| ppath_nil : ppath e d 0 []
| ppath_snoc : forall k x ws t, pidx e d k x -> tokd d k = Some t -> ppath e d x ws ->
    ppath e d k (ws ++ [t]).

Lemma words_snoc : forall i al col,
  words_of i (al ++ [col]) =
  words_of i al ++ match nth_error col i with Some (Some t) => [t] | _ => [] end.
Proof. intros. unfold words_of. rewrite flat_map_app. simpl. rewrite app_nil_r. reflexivity. Qed.

Lemma nth_map_seq : forall A (f : nat -> A) n i, i < n -> nth_error (map f (seq 0 n)) i = Some (f i).
Proof.
  intros A f n i Hi. rewrite nth_error_map.
  replace (nth_error (seq 0 n) i) with (Some i); [reflexivity|].
  symmetry. rewrite (nth_error_nth' _ 0) by (rewrite seq_length; exact Hi).
  rewrite seq_nth by exact Hi. reflexivity.
Qed.

Lemma linked_snoc : forall e ws t, linked e (ws ++ [t]) <->
  linked e ws /\ (ws = [] \/ In (List.last ws 0) (te_prec e t)).
Proof.
  intros e. induction ws as [|a ws IH]; intros t.
  - simpl. tauto.
  - destruct ws as [|b ws].
    + simpl. split; [intros [H _]; auto|]. intros [_ [H|H]]; [discriminate|auto].
    + change ((a :: b :: ws) ++ [t]) with (a :: b :: (ws ++ [t])).
      change (linked e (a :: b :: ws ++ [t])) with (In a (te_prec e b) /\ linked e ((b :: ws) ++ [t])).
      rewrite IH. change (linked e (a :: b :: ws)) with (In a (te_prec e b) /\ linked e (b :: ws)).
      change (List.last (a :: b :: ws) 0) with (List.last (b :: ws) 0).
      split; [intros (H & H1 & [H2|H2]); [discriminate|auto]|].
      intros [[H H1] [H2|H2]]; [discriminate|auto].
Qed.

Lemma last_dflt : forall (l : list nat) a b, l <> [] -> List.last l a = List.last l b.
Proof.
  induction l as [|x l IH]; intros a b H; [congruence|].
  destruct l as [|y l]; [reflexivity|]. simpl. apply IH. discriminate.
Qed.

Lemma hd_snoc : forall (ws : list nat) t d, ws <> [] -> List.hd d (ws ++ [t]) = List.hd d ws.
Proof. intros [|a ws] t d H; [congruence|reflexivity]. Qed.

Section WF.
Variable g : graph.
Hypothesis Hwf : wf_graph g.
Let e := g_env g.
Let n := List.length (g_dims g).

(** Shape of a non-empty [ppath]. *)
Lemma ppath_shape : forall d k ws, wf_dim e d -> ppath e d k ws ->
  (k = 0 -> ws = []) /\
  (k <> 0 -> ws <> [] /\ In (List.hd 0 ws) (d_first d) /\ linked e ws /\
             tokd d k = Some (List.last ws 0) /\ forall t, In t ws -> In t (d_toks d)).
Proof.
  intros d k ws Hd Hp. induction Hp as [|k x ws t Hpi Ht Hp IH].
  - split; [reflexivity|tauto].
  - split; [intros ->; discriminate|]. intros _.
    split; [destruct ws; discriminate|].
    assert (Hx : x = 0 /\ In t (d_first d) \/ x <> 0 /\ ws <> [] /\ In (List.last ws 0) (te_prec e t)).
    { destruct Hpi as (t' & Ht' & [[Hf ->]|(p & Hpp & Hin & ->)]).
      - left. rewrite Ht in Ht'. injection Ht' as <-. auto.
      - right. rewrite Ht in Ht'. injection Ht' as <-.
        destruct (tokd_index d p Hin) as (H0 & _ & Htp).
        split; [exact H0|]. destruct IH as [_ IH]. destruct (IH H0) as (Hne & _ & _ & Hl & _).
        split; [exact Hne|]. rewrite Htp in Hl. injection Hl as <-. exact Hpp. }
    destruct IH as [IH0 IH1].
    split; [|split; [|split]].
    + destruct Hx as [[-> Hf]|(Hx0 & Hne & _)].
      * rewrite (IH0 eq_refl). exact Hf.
      * rewrite hd_snoc by exact Hne. apply IH1. exact Hx0.
    + apply linked_snoc. destruct Hx as [[-> Hf]|(Hx0 & Hne & Hl)].
      * rewrite (IH0 eq_refl). split; [exact I|now left].
      * split; [apply IH1; exact Hx0|now right].
    + rewrite last_last. exact Ht.
    + intros u Hu. apply in_app_or in Hu. destruct Hu as [Hu|[<-|[]]]; [|eapply tokd_In; exact Ht].
      destruct Hx as [[-> _]|(Hx0 & _ & _)].
      * rewrite (IH0 eq_refl) in Hu. destruct Hu.
      * apply IH1; assumption.
Qed.

Lemma start_choice_last : forall d k, wf_dim e d -> In k (start_choices d) ->
  k <= List.length (d_toks d) /\
  ((k = 0 /\ d_last d = []) \/ (exists t, tokd d k = Some t /\ In t (d_last d))).
Proof.
  intros d k Hd Hk. unfold start_choices in Hk.
  destruct (d_last d) as [|t0 ls] eqn:El.
  - destruct Hk as [<-|[]]. split; [lia|]. left. auto.
  - rewrite <- El in Hk. apply in_map_iff in Hk. destruct Hk as (t & <- & Ht).
    destruct Hd as (_ & Hl & _). specialize (Hl t Ht).
    destruct (tokd_index d t Hl) as (_ & H2 & H3). split; [exact H2|].
    right. exists t. rewrite <- El. auto.
Qed.

Lemma ppath_complete : forall d k ws, wf_dim e d -> In k (start_choices d) -> ppath e d k ws ->
  complete_path e d ws.
Proof.
  intros d k ws Hd Hk Hp. destruct (ppath_shape d k ws Hd Hp) as [H0 H1].
  destruct (start_choice_last d k Hd Hk) as [_ [[-> Hl]|(t & Ht & Hl)]].
  - rewrite (H0 eq_refl). exact Hl.
  - assert (k <> 0) as Hk0 by (intros ->; discriminate).
    destruct (H1 Hk0) as (Hne & Hf & Hlk & Htl & Hin).
    rewrite Ht in Htl. injection Htl as Htl.
    destruct ws as [|w ws]; [congruence|]. simpl.
    split; [exact Hf|]. split; [exact Hlk|]. split; [|exact Hin].
    change (match ws with [] => w | _ :: _ => List.last ws w end) with (List.last (w :: ws) w).
    rewrite (last_dflt _ w 0) by discriminate. rewrite <- Htl. exact Hl.
Qed.

Lemma path_ppath : forall d ws, wf_dim e d -> ws <> [] ->
  In (List.hd 0 ws) (d_first d) -> linked e ws -> (forall t, In t ws -> In t (d_toks d)) ->
  ppath e d (token_index d (List.last ws 0)) ws.
Proof.
  intros d ws Hd. induction ws as [|t ws IH] using rev_ind; intros Hne Hf Hl Hin; [congruence|].
  rewrite last_last.
  assert (Ht : In t (d_toks d)) by (apply Hin; apply in_or_app; right; now left).
  destruct (tokd_index d t Ht) as (_ & _ & Hti).
  apply linked_snoc in Hl. destruct Hl as [Hl Hlast].
  destruct (list_eq_dec Nat.eq_dec ws []) as [->|Hne'].
  - simpl in Hf. apply (ppath_snoc e d _ 0 [] t); [|exact Hti|constructor].
    exists t. auto.
  - destruct Hlast as [Hlast|Hlast]; [congruence|].
    apply ppath_snoc with (x := token_index d (List.last ws 0)); [|exact Hti|].
    + exists t. split; [exact Hti|]. right. exists (List.last ws 0). split; [exact Hlast|]. split; [|reflexivity].
      apply Hin. apply in_or_app. left.
      destruct (exists_last Hne') as (l' & z & Hz). rewrite Hz. rewrite last_last.
      apply in_or_app. right. now left.
    + apply IH.
      * exact Hne'.
      * rewrite hd_snoc in Hf by exact Hne'. exact Hf.
      * exact Hl.
      * intros u Hu. apply Hin. apply in_or_app. now left.
Qed.

Lemma complete_ppath : forall d ws, wf_dim e d -> complete_path e d ws ->
  exists k, In k (start_choices d) /\ ppath e d k ws.
Proof.
  intros d ws Hd Hc. destruct ws as [|w ws].
  - simpl in Hc. exists 0. unfold start_choices. rewrite Hc. split; [now left|constructor].
  - cbn [complete_path] in Hc. destruct Hc as (Hf & Hl & Hlast & Hin).
    rewrite (last_dflt _ w 0) in Hlast by discriminate.
    exists (token_index d (List.last (w :: ws) 0)). split.
    + unfold start_choices. destruct (d_last d) as [|t0 ls]; [destruct Hlast|].
      apply in_map. exact Hlast.
    + apply path_ppath; auto. discriminate.
Qed.

(** ** From walks to alignments *)

Lemma column_nth : forall c p i, i < n ->
  nth_error (column_of g c p) i = Some (if mem i (changed c p) then tok_at g c i else None).
Proof. intros c p i Hi. unfold column_of. rewrite nth_map_seq by exact Hi. reflexivity. Qed.

Lemma walk_alignment : forall c al, valid g c -> walk g c al ->
  Forall (legal_column n (g_ref g)) al /\
  forall i d k, nth_error (g_dims g) i = Some d -> nth_error c i = Some k ->
    ppath e d k (words_of i al).
Proof.
  intros c al Hv Hw. induction Hw as [c He|c p al He Hs Hw IH].
  - split; [constructor|]. intros i d k Hd Hk.
    rewrite is_ending_spec in He. rewrite (He i k Hk). constructor.
  - assert (Hvp : valid g p) by (eapply cand_valid; [exact Hwf|exact Hv|apply Hs]).
    destruct (IH Hvp) as [IH1 IH2]. split.
    { apply Forall_app. split; [exact IH1|]. constructor; [|constructor].
      apply (transition_ok g Hwf c p Hv (proj1 Hs)). }
    intros i d k Hd Hk. rewrite words_snoc.
    assert (Hin : i < n) by (apply nth_error_Some; congruence).
    rewrite column_nth by exact Hin.
    assert (Hle : k <= List.length (d_toks d)) by (exact (valid_le g c i d k Hv Hd Hk)).
    rewrite (tok_at_tokd g c i d k Hd Hk Hle).
    destruct (cand_changed g Hwf c p (proj1 Hs)) as
      [(a & d1 & k1 & x & Hd1 & Hk1 & Hp1 & Ep & ->)|
       (a & b & d1 & k1 & x & d2 & k2 & y & Hb & Ha & Hd1 & Hk1 & Hp1 & Hd2 & Hk2 & Hp2 & Ep & ->)].
    + simpl. destruct (Nat.eqb_spec a i) as [->|Hne].
      * rewrite Hd in Hd1. injection Hd1 as <-. rewrite Hk in Hk1. injection Hk1 as <-.
        pose proof Hp1 as (t & Ht & _). rewrite Ht.
        apply ppath_snoc with (x := x); [exact Hp1|exact Ht|].
        apply (IH2 i d x Hd). rewrite Ep. apply nth_error_update_same.
        apply nth_error_Some. congruence.
      * rewrite app_nil_r. apply (IH2 i d k Hd). rewrite Ep.
        rewrite nth_error_update_other by exact Hne. exact Hk.
    + simpl. destruct (Nat.eqb_spec b i) as [->|Hne].
      * rewrite Hd in Hd2. injection Hd2 as <-. rewrite Hk in Hk2. injection Hk2 as <-.
        pose proof Hp2 as (t & Ht & _). rewrite Ht.
        apply ppath_snoc with (x := y); [exact Hp2|exact Ht|].
        apply (IH2 i d y Hd). rewrite Ep. apply nth_error_update_same.
        rewrite update_length. apply nth_error_Some. congruence.
      * destruct (Nat.eqb_spec a i) as [->|Hne'].
        -- rewrite Hd in Hd1. injection Hd1 as <-. rewrite Hk in Hk1. injection Hk1 as <-.
           pose proof Hp1 as (t & Ht & _). rewrite Ht.
           apply ppath_snoc with (x := x); [exact Hp1|exact Ht|].
           apply (IH2 i d x Hd). rewrite Ep. rewrite nth_error_update_other by exact Hne.
           apply nth_error_update_same. apply nth_error_Some. congruence.
        -- rewrite app_nil_r. apply (IH2 i d k Hd). rewrite Ep.
           rewrite nth_error_update_other by exact Hne.
           rewrite nth_error_update_other by exact Hne'. exact Hk.
Qed.

(** ** Starting coordinates *)

Lemma product_spec : forall cs c, In c (product cs) <-> Forall2 (fun xs x => In x xs) cs c.
Proof.
  induction cs as [|xs cs IH]; intros c; simpl.
  - split; [intros [<-|[]]; constructor|]. intros H. inversion H. now left.
  - rewrite in_flat_map. split.
    + intros (r & Hr & Hc). apply in_map_iff in Hc. destruct Hc as (x & <- & Hx).
      constructor; [exact Hx|]. apply IH. exact Hr.
    + intros H. inversion H as [|? x ? r Hx Hr]; subst. exists r.
      split; [apply IH; exact Hr|]. apply in_map_iff. exists x. auto.
Qed.

Lemma starts_spec : forall c, In c (starting_coordinates g) <->
  Forall2 (fun d k => In k (start_choices d)) (g_dims g) c.
Proof.
  intros c. unfold starting_coordinates. rewrite <- in_rev, product_spec.
  generalize (g_dims g). intros ds. revert c. induction ds as [|d ds IH]; intros c; simpl.
  - split; intros H; inversion H; constructor.
  - split; intros H; inversion H; subst; constructor; auto; apply IH; assumption.
Qed.

Lemma starts_valid : forall c, In c (starting_coordinates g) -> valid g c.
Proof.
  intros c Hc. apply starts_spec in Hc. unfold valid.
  assert (G : forall ds c, (forall d, In d ds -> wf_dim e d) ->
    Forall2 (fun d k => In k (start_choices d)) ds c ->
    Forall2 (fun d k => k <= List.length (d_toks d)) ds c).
  { clear c Hc. intros ds c Hd H. induction H as [|d k ds c Hk H IH]; constructor.
    - apply (start_choice_last d k); [apply Hd; now left|exact Hk].
    - apply IH. intros d' Hd'. apply Hd. now right. }
  apply G; [|exact Hc]. apply Hwf.
Qed.

Lemma starts_nonempty : starting_coordinates g <> [].
Proof.
  assert (H : exists c, Forall2 (fun d k => In k (start_choices d)) (g_dims g) c).
  { generalize (g_dims g). induction l as [|d l [c IH]]; [exists []; constructor|].
    destruct (start_choices d) as [|k ks] eqn:E.
    - unfold start_choices in E. destruct (d_last d); discriminate.
    - exists (k :: c). constructor; [rewrite E; now left|exact IH]. }
  destruct H as [c Hc]. apply starts_spec in Hc. intros E. rewrite E in Hc. exact Hc.
Qed.

Lemma walk_start_alignment : forall c al, In c (starting_coordinates g) -> walk g c al ->
  is_alignment g al.
Proof.
  intros c al Hc Hw. pose proof (starts_valid c Hc) as Hv.
  destruct (walk_alignment c al Hv Hw) as [H1 H2]. split; [exact H1|].
  intros i d Hd. apply starts_spec in Hc.
  destruct (Forall2_nth _ _ _ _ _ Hc _ _ Hd) as (k & Hk & Hks).
  apply (ppath_complete d k); [apply Hwf; eapply nth_error_In; exact Hd|exact Hks|].
  apply H2; assumption.
Qed.

(** ** From alignments to walks *)

Lemma ppath_snoc_inv : forall d k ws t, ppath e d k (ws ++ [t]) ->
  exists x, pidx e d k x /\ tokd d k = Some t /\ ppath e d x ws.
Proof.
  intros d k ws t H. remember (ws ++ [t]) as l eqn:El. destruct H as [|k x ws' t' H1 H2 H3].
  - destruct ws; discriminate.
  - apply app_inj_tail in El. destruct El as [-> ->]. exists x. auto.
Qed.

Lemma entries_from_In : forall col i j t, In (j, t) (entries_from i col) <->
  i <= j /\ nth_error col (j - i) = Some (Some t).
Proof.
  induction col as [|o col IH]; intros i j t; simpl.
  - split; [tauto|]. intros [_ H]. destruct (j - i); discriminate.
  - assert (G : (exists t', (i, t') = (j, t) /\ o = Some t') \/ In (j, t) (entries_from (S i) col) <->
      i <= j /\ nth_error (o :: col) (j - i) = Some (Some t)).
    { rewrite IH. split.
      - intros [(t' & E & ->)|[Hle Hn]].
        + injection E as <- <-. rewrite Nat.sub_diag. auto.
        + split; [lia|]. replace (j - i) with (S (j - S i)) by lia. exact Hn.
      - intros [Hle Hn]. destruct (Nat.eq_dec i j) as [->|Hne].
        + rewrite Nat.sub_diag in Hn. simpl in Hn. injection Hn as ->. left. exists t. auto.
        + right. split; [lia|]. replace (j - i) with (S (j - S i)) in Hn by lia. exact Hn. }
    rewrite <- G. destruct o as [u|]; simpl.
    + split; [intros [H|H]; [left; exists u; auto|auto]|].
      intros [(t' & H & E)|H]; [injection E as <-; auto|auto].
    + split; [auto|]. intros [(t' & H & E)|H]; [discriminate|auto].
Qed.

Lemma entries_In : forall col j t, In (j, t) (entries col) <-> nth_error col j = Some (Some t).
Proof.
  intros. unfold entries. rewrite entries_from_In, Nat.sub_0_r.
  split; [tauto|]. intros H. split; [lia|exact H].
Qed.

Lemma entries_eq_col : forall a b, List.length a = List.length b -> entries a = entries b -> a = b.
Proof.
  intros a b Hl He. apply nth_error_ext. intros i.
  destruct (nth_error a i) as [[t|]|] eqn:Ea.
  - apply entries_In in Ea. rewrite He in Ea. apply entries_In in Ea. congruence.
  - destruct (nth_error b i) as [[u|]|] eqn:Eb; auto.
    + apply entries_In in Eb. rewrite <- He in Eb. apply entries_In in Eb. congruence.
    + apply nth_error_None in Eb. assert (i < List.length a) by (apply nth_error_Some; congruence). lia.
  - apply nth_error_None in Ea. symmetry. apply nth_error_None. lia.
Qed.

Lemma alignment_walk : no_pruning g -> forall al c, valid g c ->
  Forall (legal_column n (g_ref g)) al ->
  (forall i d k, nth_error (g_dims g) i = Some d -> nth_error c i = Some k ->
    ppath e d k (words_of i al)) ->
  walk g c al.
Proof.
  intros [Hnp1 Hnp2]. induction al as [|col al IH] using rev_ind; intros c Hv Hl Hp.
  - constructor. apply is_ending_spec. intros i k Hk.
    destruct (Forall2_nth_r _ _ _ _ _ Hv _ _ Hk) as (d & Hd & _).
    specialize (Hp i d k Hd Hk). simpl in Hp.
    inversion Hp as [|k' x ws t H1 H2 H3 E]; [reflexivity|].
    destruct ws; discriminate.
  - apply Forall_app in Hl. destruct Hl as [Hl Hcol]. inversion Hcol as [|? ? Hlc _]; subst.
    destruct Hlc as [Hlen Hent].
    assert (Hval : forall p, validate g c p = Ok true).
    { intros p. unfold validate. rewrite Hnp1, Hnp2. reflexivity. }
    assert (Hne : (exists i t, In (i, t) (entries col)) -> is_ending c = false).
    { intros (i & t & Hi). apply entries_In in Hi.
      assert (Hin : i < n) by (rewrite <- Hlen; apply nth_error_Some; congruence).
      destruct (nth_error (g_dims g) i) as [d|] eqn:Hd; [|apply nth_error_None in Hd; unfold n in Hin; lia].
      destruct (Forall2_nth _ _ _ _ _ Hv _ _ Hd) as (k & Hk & _).
      specialize (Hp i d k Hd Hk). rewrite words_snoc, Hi in Hp.
      apply ppath_snoc_inv in Hp. destruct Hp as (x & _ & Ht & _).
      destruct (is_ending c) eqn:He; [|reflexivity].
      rewrite is_ending_spec in He. rewrite (He i k Hk) in Ht. discriminate. }
    assert (Hget : forall i t, In (i, t) (entries col) -> exists d k x,
       nth_error (g_dims g) i = Some d /\ nth_error c i = Some k /\ pidx e d k x /\
       tokd d k = Some t /\ ppath e d x (words_of i al)).
    { intros i t Hi. apply entries_In in Hi.
      assert (Hin : i < n) by (rewrite <- Hlen; apply nth_error_Some; congruence).
      destruct (nth_error (g_dims g) i) as [d|] eqn:Hd; [|apply nth_error_None in Hd; unfold n in Hin; lia].
      destruct (Forall2_nth _ _ _ _ _ Hv _ _ Hd) as (k & Hk & _).
      pose proof (Hp i d k Hd Hk) as H. rewrite words_snoc, Hi in H.
      apply ppath_snoc_inv in H. destruct H as (x & H1 & H2 & H3).
      exists d, k, x. auto. }
    assert (Hother : forall i, (forall t, ~ In (i, t) (entries col)) -> words_of i (al ++ [col]) = words_of i al).
    { intros i Hi. rewrite words_snoc. destruct (nth_error col i) as [[t|]|] eqn:E; try apply app_nil_r.
      apply entries_In in E. destruct (Hi t E). }
    destruct (entries col) as [|[i t] [|[j u] [|? ?]]] eqn:Ee; try contradiction.
    + destruct (Hget i t (or_introl eq_refl)) as (d & k & x & Hd & Hk & Hpi & Ht & Hpx).
      assert (Hxk : x <> k) by (eapply pidx_neq; [exact Hwf|exact Hd|exact Hpi]).
      set (p := update c i x).
      assert (Hc : cand g c p) by (apply (cand1 g c i d k x); assumption).
      assert (Ecol : col = column_of g c p).
      { apply entries_eq_col; [rewrite column_length; exact Hlen|].
        rewrite Ee. symmetry. apply (column_single g c i d k x t); assumption. }
      rewrite Ecol. apply walk_step.
      * apply Hne. exists i, t. now left.
      * split; [exact Hc|apply Hval].
      * apply IH; [eapply cand_valid; eassumption|exact Hl|].
        intros i' d' k' Hd' Hk'. destruct (Nat.eq_dec i i') as [<-|Hni].
        -- rewrite Hd in Hd'. injection Hd' as <-. unfold p in Hk'.
           rewrite nth_error_update_same in Hk' by (apply nth_error_Some; congruence).
           injection Hk' as <-. exact Hpx.
        -- rewrite <- Hother.
           ++ apply Hp; [exact Hd'|]. unfold p in Hk'. rewrite nth_error_update_other in Hk' by exact Hni. exact Hk'.
           ++ intros t' [H|[]]. injection H as <- <-. congruence.
    + (* hypothesis i, reference j *)
      destruct Hent as [Hi Hj].
      destruct (Hget i t (or_introl eq_refl)) as (d & k & x & Hd & Hk & Hpi & Ht & Hpx).
      destruct (Hget j u (or_intror (or_introl eq_refl))) as (d' & k' & y & Hd' & Hk' & Hpi' & Ht' & Hpy).
      assert (Hxk : x <> k) by (eapply pidx_neq; [exact Hwf|exact Hd|exact Hpi]).
      assert (Hyk : y <> k') by (eapply pidx_neq; [exact Hwf|exact Hd'|exact Hpi']).
      set (p := update (update c j y) i x).
      assert (Hc : cand g c p) by (apply (cand2 g c j i d' k' y d k x); assumption).
      assert (Ecol : col = column_of g c p).
      { apply entries_eq_col; [rewrite column_length; exact Hlen|].
        rewrite Ee. symmetry. apply (column_double g c j i d' k' y u d k x t); auto. lia. }
      rewrite Ecol. apply walk_step.
      * apply Hne. exists i, t. now left.
      * split; [exact Hc|apply Hval].
      * apply IH; [eapply cand_valid; eassumption|exact Hl|].
        intros i' d0 k0 Hd0 Hk0. unfold p in Hk0.
        destruct (Nat.eq_dec i i') as [<-|Hni].
        -- rewrite Hd in Hd0. injection Hd0 as <-.
           rewrite nth_error_update_same in Hk0
             by (rewrite update_length; apply nth_error_Some; congruence).
           injection Hk0 as <-. exact Hpx.
        -- rewrite nth_error_update_other in Hk0 by exact Hni.
           destruct (Nat.eq_dec j i') as [<-|Hnj].
           ++ rewrite Hd' in Hd0. injection Hd0 as <-.
              rewrite nth_error_update_same in Hk0 by (apply nth_error_Some; congruence).
              injection Hk0 as <-. exact Hpy.
           ++ rewrite nth_error_update_other in Hk0 by exact Hnj.
              rewrite <- Hother; [apply Hp; assumption|].
              intros t' [H|[H|[]]]; injection H as <- <-; congruence.
Qed.

Lemma alignment_has_walk : no_pruning g -> forall al, is_alignment g al ->
  exists c, In c (starting_coordinates g) /\ walk g c al.
Proof.
  intros Hnp al [Hl Hc].
  assert (G : forall ds (off : nat), (forall i d, nth_error ds i = Some d -> wf_dim e d /\ complete_path e d (words_of (off + i) al)) ->
    exists c, Forall2 (fun d k => In k (start_choices d)) ds c /\
      forall i d k, nth_error ds i = Some d -> nth_error c i = Some k -> ppath e d k (words_of (off + i) al)).
  { induction ds as [|d ds IH]; intros off H.
    - exists []. split; [constructor|]. intros [|i]; discriminate.
    - destruct (IH (S off)) as (c & Hf & Hp).
      { intros i d' Hd'. replace (S off + i) with (off + S i) by lia. apply H. exact Hd'. }
      destruct (H 0 d eq_refl) as [Hd Hcp]. rewrite Nat.add_0_r in Hcp.
      destruct (complete_ppath d _ Hd Hcp) as (k & Hk & Hpk).
      exists (k :: c). split; [constructor; assumption|].
      intros [|i] d' k' Hd' Hk'; simpl in Hd', Hk'.
      + injection Hd' as <-. injection Hk' as <-. rewrite Nat.add_0_r. exact Hpk.
      + replace (off + S i) with (S off + i) by lia. apply Hp; assumption. }
  destruct (G (g_dims g) 0) as (c & Hf & Hp).
  { intros i d Hd. split; [apply Hwf; eapply nth_error_In; exact Hd|]. simpl. apply Hc. exact Hd. }
  simpl in Hp. apply starts_spec in Hf. exists c. split; [exact Hf|].
  apply alignment_walk; auto. apply starts_valid. exact Hf.
Qed.
End WF.
