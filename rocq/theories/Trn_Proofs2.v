(** Proofs about Trn_Model: the references of the hypotheses. *)
From Coq Require Import List NArith ZArith Arith Bool Lia Permutation Sorted.
From Verif Require Import Base Chan_Model Read_Model Read_Spec Read_Proofs Read_Proofs3 Trn_Model Trn_Spec Trn_Proofs.
Import ListNotations.
Local Open Scope res_scope.

Definition clash (done : list (str * str)) (id : str) : Prop :=
  exists t t', First done id t /\ In (t', id) done /\ ~ exists r, t = t' ++ r.

Record Inv (ids : list str) (done : list (str * str)) (set : list (option str)) (num : nat) (bad : bool) : Prop := {
  i_len : length set = length ids;
  i_set : forall i t, nth_error set i = Some (Some t) <-> exists id, bsearch id ids = Ok (Some i) /\ First done id t;
  i_num : num = count set;
  i_bad : bad = true <-> exists id, In id ids /\ clash done id
}.
Section Ids.
  Variable ids : list str.
  Hypothesis S : StronglySorted le ids.

  Lemma bs_nth id i : bsearch id ids = Ok (Some i) -> nth_error ids i = Some id.
  Proof. destruct (bsearch_ok ids id S) as [(j & E & H)|[E H]]; rewrite E; intro X; [|discriminate]. injection X as ->. exact H. Qed.
  Lemma bs_in id : In id ids -> exists i, bsearch id ids = Ok (Some i).
  Proof. destruct (bsearch_ok ids id S) as [(j & E & H)|[E H]]; [eauto|contradiction]. Qed.
  Lemma bs_inj id id' i : bsearch id ids = Ok (Some i) -> bsearch id' ids = Ok (Some i) -> id = id'.
  Proof. intros A B. apply bs_nth in A, B. congruence. Qed.

  Lemma clash_snoc done t id id' : clash (done ++ [(t, id)]) id' <->
    clash done id' \/ (id' = id /\ exists t0, First done id t0 /\ ~ exists r, t0 = t ++ r).
  Proof.
    unfold clash. split.
    - intros (u & u' & F & I & NP). apply first_snoc in F. apply in_app_iff in I. destruct F as [F|[NI E]].
      + destruct I as [I|[E|[]]]; [left; eauto|]. injection E as -> ->. right. eauto.
      + injection E as -> ->. destruct I as [I|[E|[]]].
        * exfalso. apply NI. apply (in_map snd) in I. exact I.
        * injection E as ->. exfalso. apply NP. exists []. rewrite app_nil_r. reflexivity.
    - intros [(u & u' & F & I & NP)|[-> (t0 & F & NP)]].
      + exists u, u'. split; [apply first_snoc; auto|]. split; [apply in_app_iff; auto|exact NP].
      + exists t0, t. split; [apply first_snoc; auto|]. split; [apply in_app_iff; right; left; reflexivity|exact NP].
  Qed.
  Lemma store_ok cs lines : forall rs done set num bad, Forall2 (fun l u => remove_id (fold_case cs l) = Ok u) lines rs ->
    Inv ids done set num bad ->
    exists set' num' bad', store_refs cs ids lines set num bad = Ok (set', num', bad') /\ Inv ids (done ++ rs) set' num' bad'.
  Proof.
    induction lines as [|l lines IH]; intros rs done set num bad F I; inversion F as [|? (t, id) ? rs' R F' E1 E2]; subst.
    - exists set, num, bad. rewrite app_nil_r. auto.
    - cbn [store_refs]. rewrite R. cbn [rbind]. replace (done ++ (t, id) :: rs') with ((done ++ [(t, id)]) ++ rs') by (rewrite <- app_assoc; reflexivity).
      destruct I as [IL IS IN IB]. destruct (bsearch_ok ids id S) as [(i & E & Hi)|[E Hi]]; rewrite E; cbn [rbind].
      + destruct (nth_error set i) as [[t0|]|] eqn:Es.
        * apply IS in Es. destruct Es as (id0 & B0 & F0). assert (id0 = id) by (eapply bs_inj; eauto). subst id0.
          assert (IX : In id (map snd done)) by (apply first_in in F0; apply (in_map snd) in F0; exact F0).
          apply IH; [exact F'|]. split; [exact IL| |exact IN|].
          -- intros j u. rewrite IS. split; intros (id' & B & Fu); exists id'; (split; [exact B|]).
             ++ apply first_snoc. auto.
             ++ apply first_snoc in Fu. destruct Fu as [Fu|[NI EE]]; [exact Fu|]. injection EE as -> ->. contradiction.
          -- rewrite orb_true_iff, negb_true_iff, IB. split.
             ++ intros [(id' & J & C)|P]; [exists id'; split; [exact J|apply clash_snoc; auto]|].
                exists id. split; [apply nth_error_In in Hi; exact Hi|]. apply clash_snoc. right. split; [reflexivity|]. exists t0. split; [exact F0|].
                intro X. apply prefix_ok in X. congruence.
             ++ intros (id' & J & C). apply clash_snoc in C. destruct C as [C|[-> (u & Fu & NP)]]; [left; eauto|]. right.
                destruct (prefix_of t t0) eqn:P; [|reflexivity]. exfalso. apply NP. apply prefix_ok in P.
                assert (u = t0) by (eapply first_fun; eauto). subst u. exact P.
        * assert (NX : ~ In id (map snd done)).
          { intro I. apply in_map_iff in I. destruct I as ((u, id') & E' & I). cbn [snd] in E'. subst id'.
            destruct (first_last _ _ _ I) as (t' & Ft). assert (X : nth_error set i = Some (Some t')) by (apply IS; eauto). congruence. }
          apply IH; [exact F'|]. split.
          -- rewrite update_length. exact IL.
          -- intros j u. destruct (Nat.eq_dec i j) as [<-|NE].
             ++ rewrite update_same by (apply nth_error_Some; congruence). split.
                ** intros X. injection X as ->. exists id. split; [exact E|]. apply first_snoc. auto.
                ** intros (id' & B & Fu). assert (id' = id) by (eapply bs_inj; eauto). subst id'. apply first_snoc in Fu.
                   destruct Fu as [Fu|[_ EE]]; [|congruence]. apply first_in in Fu. apply (in_map snd) in Fu. contradiction.
             ++ rewrite update_other by exact NE. rewrite IS. split; intros (id' & B & Fu); exists id'; (split; [exact B|]).
                ** apply first_snoc. auto.
                ** apply first_snoc in Fu. destruct Fu as [Fu|[_ EE]]; [exact Fu|]. injection EE as -> ->. congruence.
          -- rewrite IN. symmetry. apply count_update, Es.
          -- rewrite IB. split; intros (id' & J & C); exists id'; (split; [exact J|]); [apply clash_snoc; auto|].
             apply clash_snoc in C. destruct C as [C|[-> (u & Fu & _)]]; [exact C|]. apply first_in in Fu. apply (in_map snd) in Fu. contradiction.
        * exfalso. apply nth_error_None in Es. assert (i < length ids)%nat by (apply nth_error_Some; congruence). lia.
      + apply IH; [exact F'|]. split; [exact IL| |exact IN|].
        * intros j u. rewrite IS. split; intros (id' & B & Fu); exists id'; (split; [exact B|]).
          -- apply first_snoc. auto.
          -- apply first_snoc in Fu. destruct Fu as [Fu|[NI EE]]; [exact Fu|]. injection EE as -> ->. congruence.
        * rewrite IB. split; intros (id' & J & C); exists id'; (split; [exact J|]); [apply clash_snoc; auto|].
          apply clash_snoc in C. destruct C as [C|[-> _]]; [exact C|contradiction].
  Qed.
  Lemma inv_start : Inv ids [] (map (fun _ => None) ids) 0 false.
  Proof.
    split.
    - apply map_length.
    - intros i t. split.
      + intros E. apply nth_error_In in E. apply in_map_iff in E. destruct E as (? & E & _). discriminate.
      + intros (id & _ & (a & b & E & _)). destruct a; discriminate.
    - unfold count. induction ids as [|x l IH]; [reflexivity|]. cbn [map filter some]. apply IH. inversion S; assumption.
    - split; [discriminate|]. intros (id & _ & (t & t' & _ & [] & _)).
  Qed.
  Lemma full_iff done set num bad : Inv ids done set num bad ->
    (num = length ids <-> NoDup ids /\ forall id, In id ids -> In id (map snd done)).
  Proof.
    intros [IL IS IN IB]. rewrite IN, <- IL, count_full, Forall_forall. split.
    - intros H. assert (K : forall i id, nth_error ids i = Some id -> bsearch id ids = Ok (Some i) /\ In id (map snd done)).
      { intros i id Hi. destruct (nth_error set i) as [[t|]|] eqn:Es.
        - apply IS in Es. destruct Es as (id' & B & Ft). assert (id' = id) by (apply bs_nth in B; congruence). subst id'.
          split; [exact B|]. apply first_in in Ft. apply (in_map snd) in Ft. exact Ft.
        - exfalso. apply nth_error_In in Es. exact (H _ Es eq_refl).
        - exfalso. apply nth_error_None in Es. assert (i < length ids)%nat by (apply nth_error_Some; congruence). lia. }
      split.
      + apply NoDup_nth_error. intros i j L E. destruct (nth_error ids i) as [id|] eqn:Ei; [|apply nth_error_None in Ei; lia].
        destruct (K i id Ei) as [B1 _]. symmetry in E. destruct (K j id E) as [B2 _]. congruence.
      + intros id I. apply In_nth_error in I. destruct I as (i & Hi). apply (K i id Hi).
    - intros (ND & H) o Io. apply In_nth_error in Io. destruct Io as (i & Hi).
      assert (L : (i < length ids)%nat) by (rewrite <- IL; apply nth_error_Some; congruence).
      destruct (nth_error ids i) as [id|] eqn:Ei; [|apply nth_error_None in Ei; lia].
      pose proof (nth_error_In _ _ Ei) as I. specialize (H id I). apply in_map_iff in H. destruct H as ((t, id') & E' & I'). cbn [snd] in E'. subst id'.
      destruct (first_last _ _ _ I') as (t' & Ft). destruct (bs_in id I) as (j & B). assert (j = i).
      { pose proof (bs_nth _ _ B) as X. rewrite NoDup_nth_error in ND. symmetry. apply ND; [exact L|congruence]. }
      subst j. assert (X : nth_error set i = Some (Some t')) by (apply IS; eauto). rewrite X in Hi. injection Hi as <-. discriminate.
  Qed.
End Ids.

Lemma mapM_ok {A B} (g : A -> res B) l r : Forall2 (fun x y => g x = Ok y) l r -> mapM g l = Ok r.
Proof. induction 1 as [|x y l r E F IH]; cbn [mapM]; [reflexivity|]. rewrite E. cbn [rbind]. rewrite IH. reflexivity. Qed.

(** What makes the references fit the hypotheses. *)
Definition Fit (R H : list (str * str)) : Prop :=
  NoDup (map snd H) /\ (forall id, In id (map snd H) -> In id (map snd R)) /\ (forall id, In id (map snd H) -> ~ clash R id).

Lemma load_ok cs ref hyp rl hl R H : Utts ref rl -> Utts hyp hl ->
  Forall2 (fun l u => remove_id (fold_case cs l) = Ok u) rl R -> Forall2 (fun l u => remove_id (fold_case cs l) = Ok u) hl H ->
  let ids := qsort (map snd H) in
  (Fit R H /\ exists set num, load_refs cs hyp ref = Ok (ids, set) /\ Inv ids R set num false) \/ (~ Fit R H /\ load_refs cs hyp ref = Exit).
Proof.
  intros UR UH FR FH ids. unfold load_refs. rewrite (lines_of_ok _ _ UH). cbn [rbind]. rewrite (mapM_ok _ _ _ FH). cbn [rbind].
  fold ids. rewrite (lines_of_ok _ _ UR). cbn [rbind].
  pose proof (qsort_sorted (map snd H) : StronglySorted le ids) as SS. pose proof (qsort_perm (map snd H) : Permutation ids _) as PP.
  destruct (store_ok ids SS cs rl R [] _ _ _ FR (inv_start ids SS)) as (set & num & bad & E & I). cbn [app] in I. rewrite E. cbn [rbind].
  pose proof (full_iff ids SS _ _ _ _ I) as FI. pose proof (i_bad _ _ _ _ _ I) as BI.
  assert (IP : forall id, In id ids <-> In id (map snd H)) by (intro id; split; apply Permutation_in; [exact PP|symmetry; exact PP]).
  assert (NP : NoDup ids <-> NoDup (map snd H)) by (split; apply Permutation_NoDup; [exact PP|symmetry; exact PP]).
  destruct bad; cbn [orb].
  - right. split; [|reflexivity]. intros (_ & _ & C). destruct (proj1 BI eq_refl) as (id & J & X). exact (C id (proj1 (IP id) J) X).
  - destruct (Nat.eqb_spec num (length ids)) as [EQ|NE]; cbn [negb].
    + left. split; [|eauto]. apply FI in EQ. destruct EQ as [A B]. split; [apply NP, A|]. split; [intros id J; apply B, IP, J|].
      intros id J X. assert (T : false = true) by (apply BI; exists id; split; [apply IP, J|exact X]). discriminate.
    + right. split; [|reflexivity]. intros (A & B & _). apply NE, FI. split; [apply NP, A|intros id J; apply B, IP, J].
Qed.
