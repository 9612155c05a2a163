From Coq Require Import List ZArith NArith Arith Bool String Lia Permutation.
From Verif Require Import Base Store_Model Store_Spec Store_Proofs Store_Proofs2 Token_Model Rep_Model Rep_Spec Rep_Proofs Rep_Proofs2.
Import ListNotations.

Lemma place_jobs_some : forall w key js ps, place_jobs w js = Some ps ->
  exists qs, Forall2 (fun j p => placements w (j_segs j) [] (j_pairs j) = Some p) (jobs_for key js) qs /\ placed_for key js ps = List.concat qs.
Proof.
  intros w key. induction js as [|j js IH]; intros ps H; cbn [place_jobs] in H.
  - injection H as <-. exists []. split; [constructor|reflexivity].
  - unfold place_job in H. destruct (placements w (j_segs j) [] (j_pairs j)) as [p|] eqn:E; [|discriminate].
    destruct (place_jobs w js) as [l|] eqn:E2; [|discriminate]. injection H as <-. destruct (IH l eq_refl) as (qs & A & B).
    unfold jobs_for, placed_for in *. cbn [filter combine flat_map fst snd]. destruct (str_eqb (j_key j) key).
    + exists (p :: qs). split; [constructor; assumption|]. cbn [List.concat]. rewrite B. reflexivity.
    + exists qs. split; [exact A|exact B].
Qed.
Lemma place_jobs_none : forall w js, place_jobs w js = None -> exists j, In j js /\ placements w (j_segs j) [] (j_pairs j) = None.
Proof.
  intros w. induction js as [|j js IH]; intro H; cbn [place_jobs] in H; [discriminate|]. unfold place_job in H.
  destruct (placements w (j_segs j) [] (j_pairs j)) as [p|] eqn:E; [|exists j; split; [left; reflexivity|exact E]].
  destruct (place_jobs w js) eqn:E2; [discriminate|]. destruct (IH eq_refl) as (x & I & N). exists x. split; [right; exact I|exact N].
Qed.
Lemma jobs_nodup : forall w js, jobs_ok w js -> forall key : str, key <> reference_key -> NoDup (entry_refs (entries key []) ++ refs_in (flat_map j_pairs (jobs_for key js))).
Proof. intros w js [_ H] key _. apply H. Qed.

Lemma record_ok : forall w js, jobs_ok w js ->
  match run_jobs w js [] with
  | Ok al => align_ok (rev (map j_key js) ++ []) al /\ forall key, key <> reference_key ->
      exists ps, Forall2 (fun j p => placements w (j_segs j) [] (j_pairs j) = Some p) (jobs_for key js) ps /\
        Permutation (entries key al) (List.concat ps)
  | Exit => exists j, In j js /\ placements w (j_segs j) [] (j_pairs j) = None
  | _ => False
  end.
Proof.
  intros w js J. pose proof (run_jobs_ok w js [] [] (proj1 J) (Forall_nil _) (jobs_nodup w js J)) as H.
  destruct (place_jobs w js) as [ps|] eqn:E.
  - destruct H as (al & R & A & P). rewrite R. split; [exact A|]. intros key N. destruct (place_jobs_some w key js ps E) as (qs & F & Q).
    exists qs. split; [exact F|]. rewrite <- Q. exact (P key N).
  - rewrite H. apply place_jobs_none. exact E.
Qed.

(** A pair and its entry. *)
Definition entry_for (w : world) (p : pair) (e : entry) : Prop :=
  n_ref e = fst p /\ n_hyp e = snd p /\ n_res e = RUnavailable /\ forall r, fst p = Some r -> n_seg e = w_seg w r.
Lemma placements_entries : forall w segs l before p, placements w segs before l = Some p -> Forall2 (entry_for w) l p.
Proof.
  intros w segs. induction l as [|x l IH]; intros before p H; cbn [placements] in H; [injection H as <-; constructor|].
  destruct (seg_for w segs before l x) as [s|] eqn:S; [|discriminate]. destruct (placements w segs (before ++ [x]) l) as [r|] eqn:Q; [|discriminate].
  injection H as <-. constructor; [|eapply IH; exact Q]. repeat split. cbn [n_seg]. intros r' E. unfold seg_for in S. rewrite E in S. congruence.
Qed.
Lemma jobs_entries : forall w js ps, Forall2 (fun j p => placements w (j_segs j) [] (j_pairs j) = Some p) js ps ->
  Forall2 (entry_for w) (flat_map j_pairs js) (List.concat ps).
Proof.
  intros w js ps H. induction H; cbn [flat_map List.concat]; [constructor|]. apply Forall2_app; [eapply placements_entries; eassumption|assumption].
Qed.
Lemma entries_pairs : forall w l p, Forall2 (entry_for w) l p -> map (fun e => (n_ref e, n_hyp e)) p = l.
Proof.
  intros w l p H. induction H as [|x e l p (A & B & _) H IH]; [reflexivity|]. cbn [map]. rewrite A, B, IH. destruct x; reflexivity.
Qed.
Lemma entries_refs_count : forall w spk l p, Forall2 (entry_for w) l p ->
  count (fun e => str_eqb (w_spk w (n_seg e)) spk && match n_ref e with Some _ => true | None => false end) p = words_of w spk (refs_in l).
Proof.
  intros w spk l p H. induction H as [|x e l p (A & B & C & D) H IH]; [reflexivity|]. rewrite count_cons, IH, A.
  cbn [refs_in flat_map]. unfold words_of. rewrite count_app. f_equal. destruct (fst x) as [r|].
  - rewrite (D r eq_refl), andb_true_r. unfold count. cbn [filter]. destruct (str_eqb _ _); reflexivity.
  - rewrite andb_false_r. reflexivity.
Qed.
Lemma entries_hyps_count : forall w l p, Forall2 (entry_for w) l p ->
  count (fun e => match n_hyp e with Some _ => true | None => false end) p = List.length (hyps_in l).
Proof.
  intros w l p H. induction H as [|x e l p (A & B & C & D) H IH]; [reflexivity|]. rewrite count_cons, IH, B.
  cbn [hyps_in flat_map]. rewrite app_length. f_equal. destruct (snd x); reflexivity.
Qed.
Lemma jobs_pairs_ok : forall w js, Forall (job_ok w) js -> Forall (fun p => p <> (None, None)) (flat_map j_pairs js).
Proof.
  intros w js H. induction H as [|j js (_ & A & _) H IH]; cbn [flat_map]; [constructor|]. apply Forall_app. auto.
Qed.
Lemma one_key_complete : forall key K al, align_ok K al -> (forall k, In k K -> k = key) -> complete key al.
Proof.
  intros key K al A H s a t I1 I2. unfold align_ok in A. rewrite Forall_forall in A. destruct (A (s, a) I1) as [R1 _ R3]. cbn [snd] in *.
  rewrite Forall_forall in R1, R3. destruct (R3 t I2) as (k & K' & N). rewrite (H k K') in N. specialize (R1 t I2). unfold row_ref in R1.
  rewrite row_entry_ent. destruct (ent t key); [|contradiction]. destruct (ent t reference_key); [discriminate|]. cbn in R1. congruence.
Qed.
Lemma one_key_jobs : forall key js, Forall (fun j => j_key j = key) js -> jobs_for key js = js.
Proof.
  intros key js H. unfold jobs_for. induction H as [|j js E H IH]; [reflexivity|]. cbn [filter]. rewrite E, str_eqb_refl, IH. reflexivity.
Qed.

Lemma end_to_end : forall w o key js al, jobs_ok w js -> Forall (fun j => j_key j = key) js -> key <> reference_key ->
  run_jobs w js [] = Ok al ->
  exists al' m, score_align w o [key] al = Ok al' /\ count_align w key al' [] = Ok (m, true) /\
    Forall2 (scored w o) (entries key al) (entries key al') /\ map fst al' = map fst al /\
    (forall spk, counted w key spk al' no_datas (dget m spk)) /\
    (~ forgives_hyp o -> forall spk, d_refs (dget m spk) = words_of w spk (refs_in (flat_map j_pairs js))) /\
    (~ forgives_ref o -> total d_corr m + total d_sub m + total d_spk m + total d_ins m = List.length (hyps_in (flat_map j_pairs js))).
Proof.
  intros w o key js al J K NK R. pose proof (record_ok w js J) as H. rewrite R in H. destruct H as [AO P].
  destruct (P key NK) as (ps & F & PM). rewrite (one_key_jobs key js K) in F.
  assert (C : complete key al).
  { eapply one_key_complete; [exact AO|]. intros k I. rewrite app_nil_r in I. apply in_rev in I. apply in_map_iff in I as (j & E & I).
    rewrite Forall_forall in K. rewrite <- E. apply K. exact I. }
  pose proof (jobs_entries w js ps F) as EF.
  assert (NP : Forall (fun e => (n_ref e, n_hyp e) <> (None, None)) (entries key al)).
  { apply Permutation_sym in PM. eapply Permutation_Forall; [exact PM|]. apply Forall_map with (f := fun e => (n_ref e, n_hyp e)) (P := fun p => p <> (None, None)).
    rewrite (entries_pairs w _ _ EF). apply jobs_pairs_ok with w. exact (proj1 J). }
  assert (RD : ready [key] al).
  { apply ready_spec; [|discriminate]. intros k [<-|[]]. auto. }
  destruct (score_align_ok w o [key] al) as (al' & E & M & A & _); [intros [X|[]]; congruence|exact RD|].
  destruct (A key (or_introl eq_refl)) as [SC C']. pose proof (scored_good _ _ _ _ SC) as G.
  destruct (count_align_ok w key al' [] C' G) as (m & EC & CT & _ & T1 & T2 & T3 & T4 & T5 & _).
  exists al', m. split; [exact E|]. split; [exact EC|]. split; [exact SC|]. split; [exact M|]. split; [exact CT|]. split.
  - intros NF spk. destruct (CT spk) as [_ _ _ _ _ c6 _ _]. rewrite c6. cbn [dget massoc no_datas d_refs Nat.add].
    rewrite (said_refs w o spk _ _ SC NF). rewrite (count_perm _ _ _ _ PM). apply entries_refs_count. exact EF.
  - intro NF. rewrite T1, T2, T3, T5. cbn [total fold_right Nat.add]. rewrite (result_hyps w o _ _ SC NF), (count_perm _ _ _ _ PM).
    apply entries_hyps_count with w. exact EF.
Qed.
