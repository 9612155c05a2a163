(** Predecessor coordinates: what they are, that they exist, that they decrease. *)
From Coq Require Import List ZArith Arith Bool String Lia.
From Verif Require Import Base Matrix_Model Matrix_Spec Matrix_Proofs Graph_Model Graph_Spec
  Graph_Proofs1.
Import ListNotations.
Open Scope res_scope.

Definition pidx (e : tok_env) (d : dimension) (k x : nat) : Prop :=
  exists t, tokd d k = Some t /\
    ((In t (d_first d) /\ x = 0) \/
     (exists p, In p (te_prec e t) /\ In p (d_toks d) /\ x = token_index d p)).

Inductive cand (g : graph) (c : list nat) : list nat -> Prop :=
| cand1 : forall i d k x,
    nth_error (g_dims g) i = Some d -> nth_error c i = Some k -> pidx (g_env g) d k x ->
    cand g c (update c i x)
| cand2 : forall i j d k x d' k' y,
    j < g_ref g -> g_ref g <= i ->
    nth_error (g_dims g) i = Some d -> nth_error c i = Some k -> pidx (g_env g) d k x ->
    nth_error (g_dims g) j = Some d' -> nth_error c j = Some k' -> pidx (g_env g) d' k' y ->
    cand g c (update (update c i x) j y).

Definition step (g : graph) (c p : list nat) : Prop :=
  cand g c p /\ validate g c p = Ok true.

(** Rank of an index, given a rank of tokens. *)
Definition irank (rank : nat -> nat) (d : dimension) (k : nat) : nat :=
  match tokd d k with Some t => S (rank t) | None => 0 end.

Fixpoint mu (rank : nat -> nat) (ds : list dimension) (c : list nat) : nat :=
  match ds, c with
  | d :: ds', k :: c' => irank rank d k + mu rank ds' c'
  | _, _ => 0
  end.

Lemma mu_update : forall rank ds c i d k x,
  nth_error ds i = Some d -> nth_error c i = Some k ->
  mu rank ds (update c i x) + irank rank d k = mu rank ds c + irank rank d x.
Proof.
  intros rank. induction ds as [|d0 ds IH]; intros c i d k x Hd Hk.
  - destruct i; discriminate.
  - destruct c as [|k0 c]; [destruct i; discriminate|].
    destruct i as [|i]; simpl in *.
    + injection Hd as ->. injection Hk as ->. lia.
    + specialize (IH c i d k x Hd Hk). lia.
Qed.

Section WF.
Variable g : graph.
Hypothesis Hwf : wf_graph g.

Lemma wf_d : forall i d, nth_error (g_dims g) i = Some d -> wf_dim (g_env g) d.
Proof. intros i d H. apply Hwf. eapply nth_error_In. exact H. Qed.

Lemma pidx_le : forall d k x, wf_dim (g_env g) d -> pidx (g_env g) d k x ->
  x <= List.length (d_toks d).
Proof.
  intros d k x _ (t & Ht & [[_ ->]|(p & Hpp & Hpi & ->)]); [lia|].
  apply tokd_index. exact Hpi.
Qed.

Lemma pidx_rank : forall rank d k x,
  (forall t p, In t (d_toks d) -> In p (d_toks d) -> In p (te_prec (g_env g) t) -> rank p < rank t) ->
  wf_dim (g_env g) d -> pidx (g_env g) d k x ->
  irank rank d x < irank rank d k.
Proof.
  intros rank d k x Hr _ (t & Ht & H). unfold irank. rewrite Ht.
  destruct H as [[_ ->]|(p & Hpp & Hpi & ->)]; [simpl; lia|].
  apply tokd_In in Ht.
  destruct (tokd_index d p Hpi) as (_ & _ & ->).
  specialize (Hr t p Ht Hpi Hpp). lia.
Qed.

Lemma pidx_neq : forall i d k x, nth_error (g_dims g) i = Some d ->
  pidx (g_env g) d k x -> x <> k.
Proof.
  intros i d k x Hd Hp E. subst x.
  destruct Hwf as (Hw & (rank & Hr) & _).
  assert (Hin : In d (g_dims g)) by (eapply nth_error_In; exact Hd).
  assert (irank rank d k < irank rank d k); [|lia].
  apply pidx_rank; auto. intros t p. apply (Hr d t p Hin).
Qed.

Lemma cand_valid : forall c p, valid g c -> cand g c p -> valid g p.
Proof.
  intros c p Hv Hc. destruct Hc as [i d k x Hd Hk Hp|i j d k x d' k' y Hj Hi Hd Hk Hp Hd' Hk' Hp'].
  - eapply valid_update; [exact Hv|exact Hd|]. eapply pidx_le; [eapply wf_d; exact Hd|exact Hp].
  - eapply valid_update; [eapply valid_update|exact Hd'|]; [exact Hv|exact Hd| |].
    + eapply pidx_le; [eapply wf_d; exact Hd|exact Hp].
    + eapply pidx_le; [eapply wf_d; exact Hd'|exact Hp'].
Qed.

Lemma cand_mu : forall rank c p,
  (forall d t p, In d (g_dims g) -> In t (d_toks d) -> In p (d_toks d) ->
     In p (te_prec (g_env g) t) -> rank p < rank t) ->
  cand g c p -> mu rank (g_dims g) p < mu rank (g_dims g) c.
Proof.
  intros rank c p Hr Hc.
  destruct Hc as [i d k x Hd Hk Hp|i j d k x d' k' y Hj Hi Hd Hk Hp Hd' Hk' Hp'].
  - pose proof (mu_update rank _ _ _ _ _ x Hd Hk) as E.
    assert (irank rank d x < irank rank d k).
    { apply pidx_rank; [|eapply wf_d; exact Hd|exact Hp].
      intros t q. apply Hr. eapply nth_error_In; exact Hd. }
    lia.
  - pose proof (mu_update rank _ _ _ _ _ x Hd Hk) as E.
    assert (Hk2 : nth_error (update c i x) j = Some k').
    { rewrite nth_error_update_other by lia. exact Hk'. }
    pose proof (mu_update rank _ _ _ _ _ y Hd' Hk2) as E2.
    assert (irank rank d x < irank rank d k).
    { apply pidx_rank; [|eapply wf_d; exact Hd|exact Hp].
      intros t q. apply Hr. eapply nth_error_In; exact Hd. }
    assert (irank rank d' y < irank rank d' k').
    { apply pidx_rank; [|eapply wf_d; exact Hd'|exact Hp'].
      intros t q. apply Hr. eapply nth_error_In; exact Hd'. }
    lia.
Qed.

Lemma cand_changed : forall c p, cand g c p ->
  (exists i d k x, nth_error (g_dims g) i = Some d /\ nth_error c i = Some k /\
     pidx (g_env g) d k x /\ p = update c i x /\ changed c p = [i]) \/
  (exists i j d k x d' k' y, j < g_ref g /\ g_ref g <= i /\
     nth_error (g_dims g) i = Some d /\ nth_error c i = Some k /\ pidx (g_env g) d k x /\
     nth_error (g_dims g) j = Some d' /\ nth_error c j = Some k' /\ pidx (g_env g) d' k' y /\
     p = update (update c i x) j y /\ changed c p = [j; i]).
Proof.
  intros c p Hc.
  destruct Hc as [i d k x Hd Hk Hp|i j d k x d' k' y Hj Hi Hd Hk Hp Hd' Hk' Hp'].
  - left. exists i, d, k, x. repeat split; auto.
    eapply changed_update; [exact Hk|]. eapply pidx_neq; eassumption.
  - right. exists i, j, d, k, x, d', k', y. repeat split; auto.
    apply (changed_update2 c i j k x k' y); 
      [lia|exact Hk|eapply pidx_neq; [exact Hd|exact Hp]|exact Hk'|eapply pidx_neq; [exact Hd'|exact Hp']].
Qed.

Lemma tok_at_tokd : forall c i d k, nth_error (g_dims g) i = Some d -> nth_error c i = Some k ->
  k <= List.length (d_toks d) -> tok_at g c i = tokd d k.
Proof.
  intros c i d k Hd Hk Hle. unfold tok_at. rewrite Hd, Hk.
  destruct (tokd d k) as [t|] eqn:E.
  - apply vec_at_tokd in E; [|exact Hle]. rewrite E. reflexivity.
  - destruct (vec_at d k) as [[t|]|] eqn:E2; auto.
    apply vec_at_tokd in E2; [congruence|exact Hle].
Qed.

Lemma valid_le : forall c i d k, valid g c -> nth_error (g_dims g) i = Some d ->
  nth_error c i = Some k -> k <= List.length (d_toks d).
Proof.
  intros c i d k Hv Hd Hk. destruct (Forall2_nth _ _ _ _ _ Hv _ _ Hd) as (b & Hb & Hle). congruence.
Qed.

Lemma validate_ok : forall c p, valid g c -> cand g c p -> exists b, validate g c p = Ok b.
Proof.
  intros c p Hv Hc. unfold validate.
  destruct (negb (cf_prune (g_cfg g)) && negb (cf_word (g_cfg g))); [eauto|].
  destruct (cand_changed c p Hc) as [(i & d & k & x & _ & _ & _ & _ & ->)|
    (i & j & d & k & x & d' & k' & y & _ & _ & Hd & Hk & (t & Ht & _) & Hd' & Hk' & (t' & Ht' & _) & _ & ->)].
  - destruct (cf_prune (g_cfg g)); [|eauto].
    destruct (tok_at g c i); [|eauto].
    repeat match goal with |- context [if ?b then _ else _] => destruct b end; eauto.
  - destruct (cf_word (g_cfg g)); [|eauto].
    rewrite (tok_at_tokd c j d' k' Hd' Hk') by (eapply valid_le; eassumption).
    rewrite (tok_at_tokd c i d k Hd Hk) by (eapply valid_le; eassumption).
    rewrite Ht, Ht'.
    cbv zeta. match goal with |- context [if ?b then _ else _] => destruct b end; eauto.
Qed.

(** ** The enumeration loops *)

Lemma add_if_valid_spec : forall c p acc b, validate g c p = Ok b ->
  exists acc', add_if_valid g c p acc = Ok acc' /\
    forall q, In q acc' <-> In q acc \/ (q = p /\ validate g c q = Ok true).
Proof.
  intros c p acc b Hb. unfold add_if_valid. rewrite Hb. simpl.
  eexists. split; [reflexivity|]. intros q. destruct b; simpl.
  - split; [intros [<-|H]; auto|]. intros [H|[-> _]]; auto.
  - split; [auto|]. intros [H|[-> H]]; [auto|congruence].
Qed.

Lemma add_hyp_moves_spec : forall c pr j ms acc,
  (forall m, In m ms -> exists b, validate g c (update pr j m) = Ok b) ->
  exists acc', add_hyp_moves g c pr j ms acc = Ok acc' /\
    forall q, In q acc' <-> In q acc \/
      ((exists m, In m ms /\ q = update pr j m) /\ validate g c q = Ok true).
Proof.
  intros c pr j. induction ms as [|m ms IH]; intros acc Hok; simpl.
  - exists acc. split; [reflexivity|]. intros q. split; [auto|].
    intros [H|[(m & [] & _) _]]; exact H.
  - destruct (Hok m (or_introl eq_refl)) as [b Hb].
    destruct (add_if_valid_spec c _ acc b Hb) as (acc1 & -> & H1). simpl.
    destruct (IH acc1) as (acc2 & -> & H2); [intros m' Hm'; apply Hok; now right|].
    exists acc2. split; [reflexivity|]. intros q. rewrite H2, H1. split.
    + intros [[H|[-> H]]|[(m' & Hm' & ->) H]]; auto.
      * right. split; [exists m; auto|exact H].
      * right. split; [exists m'; auto|exact H].
    + intros [H|[(m' & [->|Hm'] & ->) H]]; auto.
      right. split; [exists m'; auto|exact H].
Qed.

Lemma over_hyps_spec : forall c pr prevs js acc,
  (forall j, In j js -> nth_error c j = Some 0 -> nth j prevs [] = []) ->
  (forall j m, In j js -> In m (nth j prevs []) -> exists b, validate g c (update pr j m) = Ok b) ->
  exists acc', over_hyps g c pr prevs js acc = Ok acc' /\
    forall q, In q acc' <-> In q acc \/
      ((exists j m, In j js /\ In m (nth j prevs []) /\ q = update pr j m) /\ validate g c q = Ok true).
Proof.
  intros c pr prevs. induction js as [|j js IH]; intros acc Hz Hok; cbn [over_hyps].
  - exists acc. split; [reflexivity|]. intros q. split; [auto|].
    intros [H|[(j & m & [] & _) _]]; exact H.
  - assert (E : exists acc1,
      (match nth_error c j with Some 0 => Ok acc | _ => add_hyp_moves g c pr j (nth j prevs []) acc end)
      = Ok acc1 /\
      forall q, In q acc1 <-> In q acc \/
        ((exists m, In m (nth j prevs []) /\ q = update pr j m) /\ validate g c q = Ok true)).
    { destruct (add_hyp_moves_spec c pr j (nth j prevs []) acc) as (acc1 & E1 & H1).
      { intros m Hm. apply (Hok j m); [now left|exact Hm]. }
      destruct (nth_error c j) as [[|k]|] eqn:Ej; eauto.
      exists acc. split; [reflexivity|]. rewrite (Hz j (or_introl eq_refl) Ej).
      intros q. split; [auto|]. intros [H|[(m & [] & _) _]]; exact H. }
    destruct E as (acc1 & -> & H1). cbn [rbind].
    destruct (IH acc1) as (acc2 & -> & H2).
    { intros j' Hj'. apply Hz. now right. }
    { intros j' m Hj' Hm. apply (Hok j' m); [now right|exact Hm]. }
    exists acc2. split; [reflexivity|]. intros q. rewrite H2, H1. split.
    + intros [[H|[(m & Hm & ->) H]]|[(j' & m & Hj' & Hm & ->) H]]; auto.
      * right. split; [exists j, m; repeat split; auto; now left|exact H].
      * right. split; [exists j', m; repeat split; auto; now right|exact H].
    + intros [H|[(j' & m & [->|Hj'] & Hm & ->) H]]; auto.
      * left. right. split; [exists m; auto|exact H].
      * right. split; [exists j', m; auto|exact H].
Qed.

Lemma add_ref_moves_spec : forall c prevs i ls acc,
  (forall j, In j (seq 0 (g_ref g)) -> nth_error c j = Some 0 -> nth j prevs [] = []) ->
  (forall l, In l ls -> exists b, validate g c (update c i l) = Ok b) ->
  (forall l j m, In l ls -> In j (seq 0 (g_ref g)) -> In m (nth j prevs []) ->
     exists b, validate g c (update (update c i l) j m) = Ok b) ->
  exists acc', add_ref_moves g c prevs i ls acc = Ok acc' /\
    forall q, In q acc' <-> In q acc \/
      (((exists l, In l ls /\ q = update c i l) \/
        (exists l j m, In l ls /\ In j (seq 0 (g_ref g)) /\ In m (nth j prevs []) /\
           q = update (update c i l) j m)) /\ validate g c q = Ok true).
Proof.
  intros c prevs i. induction ls as [|l ls IH]; intros acc Hz Hok1 Hok2; cbn [add_ref_moves].
  - exists acc. split; [reflexivity|]. intros q. split; [auto|].
    intros [H|[[(m & [] & _)|(l & j & m & [] & _)] _]]; exact H.
  - destruct (Hok1 l (or_introl eq_refl)) as [b Hb].
    destruct (add_if_valid_spec c _ acc b Hb) as (acc1 & -> & H1). cbn [rbind].
    destruct (over_hyps_spec c (update c i l) prevs (seq 0 (g_ref g)) acc1 Hz) as (acc2 & -> & H2).
    { intros j m Hj Hm. apply (Hok2 l j m); [now left|exact Hj|exact Hm]. }
    cbn [rbind].
    destruct (IH acc2) as (acc3 & -> & H3).
    { exact Hz. }
    { intros l' Hl'. apply Hok1. now right. }
    { intros l' j m Hl'. apply Hok2. now right. }
    exists acc3. split; [reflexivity|]. intros q. rewrite H3, H2, H1. split.
    + intros [[[H|[-> H]]|[(j & m & Hj & Hm & ->) H]]|[[(l' & Hl' & ->)|(l' & j & m & Hl' & Hj & Hm & ->)] H]]; auto.
      * right. split; [left; exists l; split; [now left|reflexivity]|exact H].
      * right. split; [right; exists l, j, m; repeat split; auto; now left|exact H].
      * right. split; [left; exists l'; split; [now right|reflexivity]|exact H].
      * right. split; [right; exists l', j, m; repeat split; auto; now right|exact H].
    + intros [H|[[(l' & [->|Hl'] & ->)|(l' & j & m & [->|Hl'] & Hj & Hm & ->)] H]]; auto.
      * right. split; [left; exists l'; auto|exact H].
      * left. right. split; [exists j, m; auto|exact H].
      * right. split; [right; exists l', j, m; auto|exact H].
Qed.

Lemma over_refs_spec : forall c prevs is acc,
  (forall j, nth_error c j = Some 0 -> nth j prevs [] = []) ->
  (forall i l, In i is -> In l (nth i prevs []) -> exists b, validate g c (update c i l) = Ok b) ->
  (forall i l j m, In i is -> In l (nth i prevs []) -> In j (seq 0 (g_ref g)) -> In m (nth j prevs []) ->
     exists b, validate g c (update (update c i l) j m) = Ok b) ->
  exists acc', over_refs g c prevs is acc = Ok acc' /\
    forall q, In q acc' <-> In q acc \/
      (((exists i l, In i is /\ In l (nth i prevs []) /\ q = update c i l) \/
        (exists i l j m, In i is /\ In l (nth i prevs []) /\ In j (seq 0 (g_ref g)) /\
           In m (nth j prevs []) /\ q = update (update c i l) j m)) /\ validate g c q = Ok true).
Proof.
  intros c prevs. induction is as [|i is IH]; intros acc Hz Hok1 Hok2; cbn [over_refs].
  - exists acc. split; [reflexivity|]. intros q. split; [auto|].
    intros [H|[[(m & ? & [] & _)|(l & j & m & ? & [] & _)] _]]; exact H.
  - assert (E : exists acc1,
      (match nth_error c i with Some 0 => Ok acc | _ => add_ref_moves g c prevs i (nth i prevs []) acc end)
      = Ok acc1 /\
      forall q, In q acc1 <-> In q acc \/
      (((exists l, In l (nth i prevs []) /\ q = update c i l) \/
        (exists l j m, In l (nth i prevs []) /\ In j (seq 0 (g_ref g)) /\ In m (nth j prevs []) /\
           q = update (update c i l) j m)) /\ validate g c q = Ok true)).
    { destruct (add_ref_moves_spec c prevs i (nth i prevs []) acc) as (acc1 & E1 & H1).
      { intros j _. apply Hz. }
      { intros l Hl. apply (Hok1 i l); [now left|exact Hl]. }
      { intros l j m Hl. apply (Hok2 i l j m); [now left|exact Hl]. }
      destruct (nth_error c i) as [[|k]|] eqn:Ei; eauto.
      exists acc. split; [reflexivity|]. rewrite (Hz i Ei).
      intros q. split; [auto|]. intros [H|[[(m & [] & _)|(l & j & m & [] & _)] _]]; exact H. }
    destruct E as (acc1 & -> & H1). cbn [rbind].
    destruct (IH acc1) as (acc2 & -> & H2).
    { exact Hz. }
    { intros i' l Hi'. apply Hok1. now right. }
    { intros i' l j m Hi'. apply Hok2. now right. }
    exists acc2. split; [reflexivity|]. intros q. rewrite H2, H1. split.
    + intros [[H|[[(l & Hl & ->)|(l & j & m & Hl & Hj & Hm & ->)] H]]|
              [[(i' & l & Hi' & Hl & ->)|(i' & l & j & m & Hi' & Hl & Hj & Hm & ->)] H]]; auto;
      right; (split; [|exact H]).
      * left. exists i, l. repeat split; auto. now left.
      * right. exists i, l, j, m. repeat split; auto. now left.
      * left. exists i', l. repeat split; auto. now right.
      * right. exists i', l, j, m. repeat split; auto. now right.
    + intros [H|[[(i' & l & [->|Hi'] & Hl & ->)|(i' & l & j & m & [->|Hi'] & Hl & Hj & Hm & ->)] H]]; auto.
      * left. right. split; [left; exists l; auto|exact H].
      * right. split; [left; exists i', l; auto|exact H].
      * left. right. split; [right; exists l, j, m; auto|exact H].
      * right. split; [right; exists i', l, j, m; repeat split; auto|exact H].
Qed.

Lemma over_single_hyps_spec : forall c prevs js acc,
  (forall j, In j js -> nth_error c j = Some 0 -> nth j prevs [] = []) ->
  (forall j m, In j js -> In m (nth j prevs []) -> exists b, validate g c (update c j m) = Ok b) ->
  exists acc', over_single_hyps g c prevs js acc = Ok acc' /\
    forall q, In q acc' <-> In q acc \/
      ((exists j m, In j js /\ In m (nth j prevs []) /\ q = update c j m) /\ validate g c q = Ok true).
Proof.
  intros c prevs js acc Hz Hok.
  assert (E : forall acc, over_single_hyps g c prevs js acc = over_hyps g c c prevs js acc).
  { clear. induction js as [|j js IH]; intros acc; simpl; [reflexivity|].
    destruct (nth_error c j) as [[|k]|]; simpl; auto;
    destruct (add_hyp_moves g c c j (nth j prevs []) acc); simpl; auto. }
  rewrite E. apply over_hyps_spec; assumption.
Qed.

Lemma all_previous_spec_gen : forall ds c,
  (forall i d, nth_error ds i = Some d -> wf_dim (g_env g) d) ->
  Forall2 (fun d k => k <= List.length (d_toks d)) ds c ->
  exists prevs, all_previous g ds c = Ok prevs /\
    (forall i, nth_error c i = Some 0 -> nth i prevs [] = []) /\
    (forall i, nth i prevs [] <> [] -> exists k, nth_error c i = Some k) /\
    (forall i d k, nth_error ds i = Some d -> nth_error c i = Some k -> k <> 0 ->
       nth i prevs [] <> [] /\ forall x, In x (nth i prevs []) <-> pidx (g_env g) d k x).
Proof.
  intros ds c Hw HF. induction HF as [|d k ds c Hk HF IH].
  - exists []. split; [reflexivity|]. split; [intros [|i]; reflexivity|].
    split; [intros [|i] H; simpl in H; tauto|]. intros [|i]; discriminate.
  - destruct IH as (prevs & E & Hz & Hn & Hs).
    { intros i d' Hd'. apply (Hw (S i)). exact Hd'. }
    cbn [all_previous].
    assert (E1 : exists p, (if Nat.eqb k 0 then Ok [] else previous_indexes (g_env g) d k) = Ok p /\
       (k = 0 -> p = []) /\ (k <> 0 -> p <> [] /\ forall x, In x p <-> pidx (g_env g) d k x)).
    { destruct (Nat.eqb_spec k 0) as [->|Hk0].
      - exists []. repeat split; tauto.
      - destruct (tokd_Some d k Hk Hk0) as (t & Ht & _).
        destruct (previous_indexes_spec (g_env g) d k t (Hw 0 d eq_refl) Ht) as (l & El & Hl & Hx).
        exists l. split; [exact El|]. split; [tauto|]. intros _. split; [exact Hl|].
        intros x. rewrite Hx. unfold pidx. split.
        + intros H. exists t. auto.
        + intros (t' & Ht' & H). rewrite Ht in Ht'. injection Ht' as <-. exact H. }
    destruct E1 as (p & -> & Hp0 & Hp1). cbn [rbind]. rewrite E. cbn [rbind].
    exists (p :: prevs). split; [reflexivity|]. split; [|split].
    + intros [|i] H; simpl in *; [apply Hp0; congruence|apply Hz; exact H].
    + intros [|i] H; simpl in *; [exists k; reflexivity|apply Hn; exact H].
    + intros [|i] d' k' Hd' Hk' Hk0; simpl in *.
      * injection Hd' as <-. injection Hk' as <-. apply Hp1. exact Hk0.
      * apply Hs; assumption.
Qed.

Lemma all_previous_spec : forall c, valid g c ->
  exists prevs, all_previous g (g_dims g) c = Ok prevs /\
    (forall i, nth_error c i = Some 0 -> nth i prevs [] = []) /\
    (forall i x, In x (nth i prevs []) <->
       exists d k, nth_error (g_dims g) i = Some d /\ nth_error c i = Some k /\ pidx (g_env g) d k x) /\
    (forall i k, nth_error c i = Some k -> k <> 0 -> nth i prevs [] <> []).
Proof.
  intros c Hv. destruct (all_previous_spec_gen (g_dims g) c) as (prevs & E & Hz & Hn & Hs).
  { intros i d. apply wf_d. }
  { exact Hv. }
  exists prevs. split; [exact E|]. split; [exact Hz|]. split.
  - intros i x. split.
    + intros Hx. destruct (Hn i) as (k & Hk).
      { intros E0. rewrite E0 in Hx. exact Hx. }
      destruct (Forall2_nth_r _ _ _ _ _ Hv _ _ Hk) as (d & Hd & _).
      exists d, k. split; [exact Hd|]. split; [exact Hk|].
      destruct (Nat.eq_dec k 0) as [->|Hk0].
      * rewrite (Hz i Hk) in Hx. destruct Hx.
      * apply (Hs i d k Hd Hk Hk0). exact Hx.
    + intros (d & k & Hd & Hk & Hp).
      assert (k <> 0) by (intros ->; destruct Hp as (t & Ht & _); discriminate).
      apply (Hs i d k Hd Hk H). exact Hp.
  - intros i k Hk Hk0. destruct (Forall2_nth_r _ _ _ _ _ Hv _ _ Hk) as (d & Hd & _).
    apply (Hs i d k Hd Hk Hk0).
Qed.

Lemma wf_ref : g_ref g <= List.length (g_dims g).
Proof. apply Hwf. Qed.

Lemma previous_coordinates_spec : forall c, valid g c ->
  exists l, previous_coordinates g c = Ok l /\
    forall p, In p l <-> is_ending c = false /\ step g c p.
Proof.
  intros c Hv. unfold previous_coordinates.
  destruct (is_ending c) eqn:Eend.
  { exists []. split; [reflexivity|]. intros p. split; [intros []|intros [H _]; discriminate]. }
  destruct (all_previous_spec c Hv) as (prevs & -> & Hz & Hin & _). cbn [rbind].
  set (n := List.length (g_dims g)).
  assert (Hok1 : forall i l, In l (nth i prevs []) -> exists b, validate g c (update c i l) = Ok b).
  { intros i l Hl. apply Hin in Hl. destruct Hl as (d & k & Hd & Hk & Hp).
    apply validate_ok; [exact Hv|]. eapply cand1; eassumption. }
  assert (Hok2 : forall i l j m, In i (seq (g_ref g) (n - g_ref g)) -> In l (nth i prevs []) ->
     In j (seq 0 (g_ref g)) -> In m (nth j prevs []) ->
     exists b, validate g c (update (update c i l) j m) = Ok b).
  { intros i l j m Hi Hl Hj Hm. apply in_seq in Hi. apply in_seq in Hj.
    apply Hin in Hl. destruct Hl as (d & k & Hd & Hk & Hp).
    apply Hin in Hm. destruct Hm as (d' & k' & Hd' & Hk' & Hp').
    apply validate_ok; [exact Hv|]. eapply cand2; try eassumption; lia. }
  destruct (over_refs_spec c prevs (seq (g_ref g) (n - g_ref g)) [] Hz) as (a & -> & Ha).
  { intros i l _. apply Hok1. }
  { exact Hok2. }
  cbn [rbind].
  destruct (over_single_hyps_spec c prevs (seq 0 (g_ref g)) a) as (b & -> & Hb).
  { intros j _. apply Hz. }
  { intros j m _. apply Hok1. }
  exists b. split; [reflexivity|]. intros p. rewrite Hb, Ha. unfold step. split.
  - intros [[[]|[[(i & l & Hi & Hl & ->)|(i & l & j & m & Hi & Hl & Hj & Hm & ->)] Hval]]|
            [(j & m & Hj & Hm & ->) Hval]]; (split; [reflexivity|]; split; [|exact Hval]).
    + apply Hin in Hl. destruct Hl as (d & k & Hd & Hk & Hp). eapply cand1; eassumption.
    + apply in_seq in Hi. apply in_seq in Hj.
      apply Hin in Hl. destruct Hl as (d & k & Hd & Hk & Hp).
      apply Hin in Hm. destruct Hm as (d' & k' & Hd' & Hk' & Hp').
      eapply cand2; try eassumption; lia.
    + apply Hin in Hm. destruct Hm as (d & k & Hd & Hk & Hp). eapply cand1; eassumption.
  - intros [_ [Hc Hval]]. destruct Hc as [i d k x Hd Hk Hp|i j d k x d' k' y Hj Hi Hd Hk Hp Hd' Hk' Hp'].
    + assert (Hx : In x (nth i prevs [])) by (apply Hin; exists d, k; auto).
      assert (Hlt : i < n) by (apply nth_error_Some; congruence).
      destruct (Nat.lt_ge_cases i (g_ref g)) as [H|H].
      * right. split; [|exact Hval]. exists i, x. repeat split; auto. apply in_seq. lia.
      * left. right. split; [|exact Hval]. left. exists i, x. repeat split; auto. apply in_seq. lia.
    + left. right. split; [|exact Hval]. right. exists i, x, j, y.
      assert (Hlt : i < n) by (apply nth_error_Some; congruence).
      repeat split; auto.
      * apply in_seq. lia.
      * apply Hin. exists d, k. auto.
      * apply in_seq. lia.
      * apply Hin. exists d', k'. auto.
Qed.

(** ** No dead ends, whatever the pruning options are *)

Lemma prune_loop_true : forall chg cb ce toks i,
  (forall t, In (Some t) toks -> (begin_of g t <= cb)%Z) ->
  prune_loop g chg cb ce i toks = true.
Proof.
  intros chg cb ce. induction toks as [|ot toks IH]; intros i H; simpl; [reflexivity|].
  assert (IH' : prune_loop g chg cb ce (S i) toks = true).
  { apply IH. intros t Ht. apply H. now right. }
  destruct (Nat.eqb i chg); [exact IH'|].
  destruct ot as [t|]; [|reflexivity].
  specialize (H t (or_introl eq_refl)).
  repeat match goal with |- context [if ?b then _ else _] => destruct b eqn:?; try reflexivity; try exact IH' end.
  exfalso. apply Z.ltb_lt in Heqb1. lia.
Qed.

(** Among the non-origin coordinates, one whose token begins latest. *)
Lemma latest_exists : forall (f : nat -> option Z) n,
  (exists i z, i < n /\ f i = Some z) ->
  exists i z, i < n /\ f i = Some z /\ forall j w, j < n -> f j = Some w -> (w <= z)%Z.
Proof.
  intros f. induction n as [|n IH]; intros (i & z & Hi & Hz); [lia|].
  destruct (f n) as [w|] eqn:En.
  - destruct (Nat.eq_dec n 0) as [->|Hn0].
    { exists 0, w. repeat split; auto. intros j w' Hj Hw'. assert (j = 0) by lia. subst.
      rewrite En in Hw'. injection Hw' as <-. lia. }
    destruct (existsb (fun j => match f j with Some _ => true | None => false end) (seq 0 n)) eqn:Ex.
    + apply existsb_exists in Ex. destruct Ex as (j & Hj & Hfj). apply in_seq in Hj.
      destruct (f j) as [u|] eqn:Ej; [|discriminate].
      destruct IH as (i' & z' & Hi' & Hz' & Hmax); [exists j, u; split; [lia|assumption]|].
      destruct (Z.le_gt_cases w z').
      * exists i', z'. split; [lia|]. split; [assumption|].
        intros j' w' Hj' Hw'. destruct (Nat.eq_dec j' n) as [->|]; [congruence|].
        apply (Hmax j'); [lia|assumption].
      * exists n, w. split; [lia|]. split; [assumption|].
        intros j' w' Hj' Hw'. destruct (Nat.eq_dec j' n) as [->|]; [rewrite En in Hw'; injection Hw' as <-; lia|].
        assert (w' <= z')%Z by (apply (Hmax j'); [lia|assumption]). lia.
    + exists n, w. split; [lia|]. split; [assumption|].
      intros j' w' Hj' Hw'. destruct (Nat.eq_dec j' n) as [->|]; [rewrite En in Hw'; injection Hw' as <-; lia|].
      exfalso. assert (existsb (fun j => match f j with Some _ => true | None => false end) (seq 0 n) = true); [|congruence].
      apply existsb_exists. exists j'. split; [apply in_seq; lia|]. rewrite Hw'. reflexivity.
  - destruct IH as (i' & z' & Hi' & Hz' & Hmax).
    { exists i, z. split; [|assumption]. destruct (Nat.eq_dec i n) as [->|]; [congruence|lia]. }
    exists i', z'. split; [lia|]. split; [assumption|].
    intros j w Hj Hw. destruct (Nat.eq_dec j n) as [->|]; [congruence|]. apply (Hmax j); [lia|assumption].
Qed.

Lemma no_dead_end : forall c, valid g c -> is_ending c = false -> exists p, step g c p.
Proof.
  intros c Hv Hne.
  destruct (not_ending_exists c Hne) as (i0 & k0 & Hk0 & Hk0n).
  set (n := List.length (g_dims g)).
  assert (Hlen : List.length c = n) by (apply valid_length; exact Hv).
  set (f := fun i => match tok_at g c i with Some t => Some (begin_of g t) | None => None end).
  destruct (latest_exists f n) as (i & z & Hi & Hfz & Hmax).
  { destruct (Forall2_nth_r _ _ _ _ _ Hv _ _ Hk0) as (d0 & Hd0 & Hle0).
    destruct (tokd_Some d0 k0 Hle0 Hk0n) as (t0 & Ht0 & _).
    exists i0, (begin_of g t0). split; [rewrite <- Hlen; apply nth_error_Some; congruence|].
    unfold f. rewrite (tok_at_tokd c i0 d0 k0 Hd0 Hk0 Hle0), Ht0. reflexivity. }
  unfold f in Hfz. destruct (tok_at g c i) as [t|] eqn:Et; [|discriminate].
  injection Hfz as Hz.
  destruct (nth_error c i) as [k|] eqn:Ek; [|apply nth_error_None in Ek; lia].
  destruct (Forall2_nth_r _ _ _ _ _ Hv _ _ Ek) as (d & Hd & Hle).
  assert (Htk : tokd d k = Some t) by (rewrite <- (tok_at_tokd c i d k Hd Ek Hle); exact Et).
  destruct (previous_indexes_spec (g_env g) d k t (wf_d i d Hd) Htk) as (l & _ & Hl & Hx).
  destruct l as [|x l]; [tauto|].
  assert (Hp : pidx (g_env g) d k x).
  { exists t. split; [exact Htk|]. apply Hx. now left. }
  exists (update c i x). split; [eapply cand1; eassumption|].
  assert (Hch : changed c (update c i x) = [i]).
  { eapply changed_update; [exact Ek|]. eapply pidx_neq; eassumption. }
  unfold validate. rewrite Hch, Et.
  destruct (negb (cf_prune (g_cfg g)) && negb (cf_word (g_cfg g))); [reflexivity|].
  destruct (cf_prune (g_cfg g)); [|reflexivity].
  destruct (negb (te_start (g_env g) t <? 0)%Z) eqn:E1; [reflexivity|].
  destruct (te_segstart (g_env g) t <? 0)%Z; [reflexivity|].
  destruct (negb (te_end (g_env g) t <? 0)%Z); [reflexivity|].
  destruct (te_segend (g_env g) t <? 0)%Z; [reflexivity|].
  f_equal. apply prune_loop_true. intros t' Ht'.
  apply in_map_iff in Ht'. destruct Ht' as (j & Hj & Hjn). apply in_seq in Hjn.
  assert (Hb : begin_of g t = te_segstart (g_env g) t).
  { unfold begin_of. apply negb_false_iff in E1. rewrite E1. reflexivity. }
  rewrite <- Hb, Hz. apply (Hmax j); [unfold n; lia|]. unfold f. rewrite Hj. reflexivity.
Qed.

End WF.
