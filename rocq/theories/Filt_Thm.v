(** C118: the checks and filters of the inputs of asclite. *)
From Coq Require Import List ZArith NArith Arith Bool Lia.
From Verif Require Import Base Store_Model Store_Proofs Segm_Model Segm_Spec Uem_Model Uem_Spec Uem_Proofs Filt_Model Filt_Spec Filt_Proofs.
Import ListNotations.
Local Open Scope list_scope.

Lemma eval_zero_gen m l : Forall (fun u => (u_from u < u_to u)%Z) m -> lasting l ->
  (total (errs m IsGen Evaluation) l = 0 -> ~ cut_out m l) /\ (~ cut m l -> total (errs m IsGen Evaluation) l = 0).
Proof. exact (eval_zero m l). Qed.
Lemma hyp_none m l : total (errs m IsHyp Evaluation) l = 0.
Proof. apply total_zero. apply Forall_forall. reflexivity. Qed.

(** The check finds no error exactly when no two segments of a speech overlap. *)
Theorem C118_overlap : forall sp, ordered sp -> (self_overlaps sp = 0 <-> ~ self_overlapping sp).
Proof. exact self_spec. Qed.
Print Assumptions C118_overlap.

(** What is scored has been checked and filtered. *)
Theorem C118_clean : forall m use_file isg has o side auto eval times opt check sm name refs hyps refs' hyps' gaps,
  Forall (fun u => (u_from u < u_to u)%Z) m -> lasting refs -> lasting (speeches hyps) -> distinct refs -> distinct (speeches hyps) -> o = IsHyp \/ o = IsGen ->
  run m use_file isg has o side (chosen auto eval) times opt check sm name refs hyps = Ok (refs', hyps', gaps) ->
  clean m use_file isg has o side auto eval times (opt && check) sm name refs hyps refs' hyps' gaps.
Proof.
  intros m use_file isg has o side auto eval times opt check sm name refs hyps refs' hyps' gaps M L1 L2 D1 D2 O. unfold run.
  assert (NO : o <> IsOther) by (destruct O; subst; discriminate).
  rewrite passes_ok by assumption. cbn [rbind]. destruct (pass2_ok m use_file isg has times auto eval (final m o side auto eval refs hyps)) as (r & -> & ->).
  destruct (if eval && (isg && negb has) then _ else Ok []) as [g| | |] eqn:EG; cbn [rbind]; try discriminate.
  destruct (Nat.eqb (n_errs (final m o side auto eval refs hyps) + _) 0) eqn:EN; [|discriminate]. intros E.
  assert (ER : n_refs (final m o side auto eval refs hyps) = refs') by congruence. assert (EH : n_hyps (final m o side auto eval refs hyps) = hyps') by congruence.
  assert (g = gaps) by congruence. subst g. clear E. rewrite ER, EH in EG. apply Nat.eqb_eq in EN.
  assert (MZ : map_errors opt check sm name (final m o side auto eval refs hyps) = 0) by lia. cbn [final n_errs n_refs n_hyps] in EN, ER, EH.
  split.
  - intros -> W sp I OR. apply rside_iff in W. rewrite W in EN. cbn [andb] in EN. apply self_spec; [exact OR|]. assert (Z0 : total self_overlaps refs = 0) by lia.
    rewrite total_zero, Forall_forall in Z0. exact (Z0 sp I).
  - intros -> W sp I OR. apply hside_iff in W. rewrite W in EN. cbn [andb] in EN. apply self_spec; [exact OR|]. assert (Z0 : total self_overlaps (speeches hyps) = 0) by lia.
    rewrite total_zero, Forall_forall in Z0. exact (Z0 sp I).
  - intros -> W. apply rside_iff in W. rewrite W in ER, EN. cbn [andb] in ER, EN. split.
    + rewrite <- ER. apply (reduced_map (keep m IsRef)). apply keep_ref_spec.
    + apply eval_zero; [exact M|exact L1|]. lia.
  - intros W. rewrite <- ER. destruct W as [-> |W]; [reflexivity|]. destruct (rside (side Evaluation)) eqn:R; [apply rside_iff in R; contradiction|]. rewrite andb_false_r. reflexivity.
  - intros -> W. apply hside_iff in W. rewrite W in EH, EN. cbn [andb] in EH, EN. split.
    + rewrite <- EH. apply reduced_after. destruct O; subst o; [apply keep_hyp_spec|apply keep_ref_spec].
    + intros ->. apply eval_zero_gen; [exact M|exact L2|]. lia.
  - intros W. rewrite <- EH. destruct W as [-> |W]; [reflexivity|]. destruct (hside (side Evaluation)) eqn:R; [apply hside_iff in R; contradiction|]. rewrite andb_false_r. reflexivity.
  - rewrite <- andb_assoc. unfold speeches. destruct (eval && (isg && negb has)); [exact EG|congruence].
  - intros K. apply andb_prop in K. destruct K as [-> ->]. unfold map_errors in MZ. rewrite andb_true_r in MZ. cbn [andb] in MZ.
    destruct (found sm name (final m o side auto eval refs hyps)) eqn:F; [|discriminate MZ]. apply found_iff in F. cbn [final n_refs n_hyps] in F. rewrite ER, EH in F. exact F.
Qed.
Print Assumptions C118_clean.

(** Inputs without faults are scored. *)
Theorem C118_accepted : forall m use_file isg has o side auto eval times opt check sm name refs hyps, opt && check = false ->
  Forall (fun u => (u_from u < u_to u)%Z) m -> lasting refs -> lasting (speeches hyps) -> distinct refs -> distinct (speeches hyps) -> o = IsHyp \/ o = IsGen ->
  (auto = true -> for_refs (side Auto) -> forall sp, In sp refs -> ordered sp /\ ~ self_overlapping sp) ->
  (auto = true -> for_hyps (side Auto) -> forall sp, In sp (speeches hyps) -> ordered sp /\ ~ self_overlapping sp) ->
  (eval = true -> for_refs (side Evaluation) -> ~ cut m refs) ->
  (eval = true -> for_hyps (side Evaluation) -> o = IsGen -> ~ cut m (speeches hyps)) ->
  eval && isg && negb has = false ->
  exists refs' hyps', run m use_file isg has o side (chosen auto eval) times opt check sm name refs hyps = Ok (refs', hyps', []).
Proof.
  intros m use_file isg has o side auto eval times opt check sm name refs hyps OC M L1 L2 D1 D2 O A1 A2 A3 A4 G.
  assert (NO : o <> IsOther) by (destruct O; subst; discriminate). unfold run.
  rewrite passes_ok by assumption. cbn [rbind]. destruct (pass2_ok m use_file isg has times auto eval (final m o side auto eval refs hyps)) as (r & -> & ->).
  rewrite <- andb_assoc in G. rewrite G. cbn [rbind]. unfold map_errors.
  assert (OC2 : forall b, opt && b && check = false) by (intros b; destruct opt, b, check; try reflexivity; discriminate OC). rewrite OC2.
  assert (Z0 : n_errs (final m o side auto eval refs hyps) = 0).
  { cbn [final n_errs].
    assert (B1 : (if auto && rside (side Auto) then total self_overlaps refs else 0) = 0).
    { destruct (auto && rside (side Auto)) eqn:B; [|reflexivity]. apply andb_prop in B. destruct B as [B1 B2]. apply rside_iff in B2. apply total_zero. apply Forall_forall. intros sp I.
      destruct (A1 B1 B2 sp I) as [K1 K2]. apply self_spec; assumption. }
    assert (B2 : (if auto && hside (side Auto) then total self_overlaps (speeches hyps) else 0) = 0).
    { destruct (auto && hside (side Auto)) eqn:B; [|reflexivity]. apply andb_prop in B. destruct B as [B2 B3]. apply hside_iff in B3. apply total_zero. apply Forall_forall. intros sp I.
      destruct (A2 B2 B3 sp I) as [K1 K2]. apply self_spec; assumption. }
    assert (B3 : (if eval && rside (side Evaluation) then total (errs m IsRef Evaluation) refs else 0) = 0).
    { destruct (eval && rside (side Evaluation)) eqn:B; [|reflexivity]. apply andb_prop in B. destruct B as [B3 B4]. apply rside_iff in B4. apply eval_zero; [exact M|exact L1|exact (A3 B3 B4)]. }
    assert (B4 : (if eval && hside (side Evaluation) then total (errs m o Evaluation) (speeches hyps) else 0) = 0).
    { destruct (eval && hside (side Evaluation)) eqn:B; [|reflexivity]. apply andb_prop in B. destruct B as [B4 B5]. apply hside_iff in B5. destruct O; subst o; [apply hyp_none|].
      apply eval_zero_gen; [exact M|exact L2|exact (A4 B4 B5 eq_refl)]. }
    lia. }
  rewrite Z0. cbn [Nat.add Nat.eqb]. eexists. eexists. reflexivity.
Qed.
Print Assumptions C118_accepted.

(** ** What does not hold *)
Definition seg (i : nat) (c : N) (a b : Z) : rseg := {| r_id := i; r_src := [102]%N; r_ch := [c]; r_start := a; r_end := b |}.
(** An overlap is not seen when a segment of another channel stands between. *)
Theorem C118_between_refuted : ~ (forall sp, Forall (fun s => (r_start s < r_end s)%Z) sp -> self_overlapping sp -> self_overlaps sp <> 0).
Proof.
  intros H. apply (H [seg 0 49 0 10; seg 1 50 0 10; seg 2 49 5 15]); [repeat constructor| |reflexivity].
  exists [], (seg 0 49 0 10), [seg 1 50 0 10], (seg 2 49 5 15), []. split; [reflexivity|]. split; [split; reflexivity|]. cbn. lia.
Qed.
Print Assumptions C118_between_refuted.
(** Segments out of order are reported although they do not overlap. *)
Theorem C118_order_refuted : ~ (forall sp, Forall (fun s => (r_start s < r_end s)%Z) sp -> ~ self_overlapping sp -> self_overlaps sp = 0).
Proof.
  intros H. assert (K : self_overlaps [seg 0 49 5 6; seg 1 49 0 1] = 0).
  { apply H; [repeat constructor|]. intros (a & s & b & t & c & E & [_ L]). destruct a as [|x [|y a]]; cbn [app] in E.
    - injection E as <- E. destruct b as [|z b]; cbn [app] in E; [|injection E as _ E; destruct b; discriminate E]. injection E as <- _. cbn in L. lia.
    - injection E as _ _ E. destruct b; discriminate E.
    - injection E as _ _ E. destruct a; discriminate E. }
  vm_compute in K. discriminate K.
Qed.
Print Assumptions C118_order_refuted.
(** An overlap outside the evaluation map stops the run. *)
Theorem C118_outside_refuted : exists m sp, Forall (fun s => ~ covered m s) sp /\
  run m true false false IsHyp (fun _ => BOTH) (chosen true true) (fun _ => []) false false [] (fun _ => []) [sp] [] = Exit.
Proof.
  exists [{| u_file := [102]%N; u_ch := [49]%N; u_from := 100; u_to := 200 |}], [seg 0 49 0 10; seg 1 49 5 15]. split; [|vm_compute; reflexivity].
  repeat constructor; intros (u & [<- |[]] & _ & K & _); cbn in K; lia.
Qed.
Print Assumptions C118_outside_refuted.
(** The map relates the speaker b of the system to the speaker a of the reference; the check looks a up as a speaker of the system. *)
Theorem C118_map_refuted :
  let sm := set_sys_ref [] [102]%N [49]%N [98]%N [97]%N in let name := fun i => match i with 0 => [97]%N | _ => [98]%N end in
  get_ref sm [102]%N [49]%N [98]%N = [97]%N /\
  run [] false false false IsHyp (fun _ => []) [] (fun _ => []) true true sm name [[seg 0 49 0 10]] [([115]%N, [[seg 1 49 0 10]])] = Exit.
Proof. split; vm_compute; reflexivity. Qed.
Print Assumptions C118_map_refuted.

(** ** Cases *)
Lemma two_ordered s t : (r_start s < r_end s)%Z -> (r_start t < r_end t)%Z -> (r_start s <= r_start t)%Z -> ordered [s; t].
Proof.
  intros P1 P2 L. split; [repeat constructor; assumption|]. intros a x b y c E S. destruct a as [|z [|w a]]; cbn [app] in E.
  - injection E as <- E. destruct b as [|z b]; cbn [app] in E; [injection E as <- _; split; [constructor|exact L]|injection E as _ E; destruct b; discriminate E].
  - injection E as _ _ E. destruct b; discriminate E.
  - injection E as _ _ E. destruct a; discriminate E.
Qed.
Definition a_map : list uem := [{| u_file := [102]%N; u_ch := [49]%N; u_from := 0; u_to := 20 |}].

(** ** Concrete cases *)
Example overlap_case : ordered [seg 0 49 0 10; seg 1 49 5 15] /\ self_overlapping [seg 0 49 0 10; seg 1 49 5 15] /\ ordered [seg 0 49 0 10; seg 1 49 10 15] /\ self_overlaps [seg 0 49 0 10; seg 1 49 10 15] = 0.
Proof.
  split; [apply two_ordered; cbn; lia|]. split; [exists [], (seg 0 49 0 10), [], (seg 1 49 5 15), []; split; [reflexivity|]; split; [split; reflexivity|cbn; lia]|].
  split; [apply two_ordered; cbn; lia|reflexivity].
Qed.

Example run_case : Forall (fun u => (u_from u < u_to u)%Z) a_map /\ lasting [[seg 0 49 0 10; seg 1 49 10 15; seg 2 49 40 50]] /\ distinct [[seg 0 49 0 10; seg 1 49 10 15; seg 2 49 40 50]] /\
  run a_map true true false IsHyp (fun _ => BOTH) (chosen true true) (fun _ => []) false false [] (fun _ => []) [[seg 0 49 0 10; seg 1 49 10 15; seg 2 49 40 50]] [([115]%N, [[seg 3 49 2 12; seg 4 49 30 40]])]
  = Ok ([[seg 0 49 0 10; seg 1 49 10 15]], [([115]%N, [[seg 3 49 2 12]])], [{| k_src := [102]%N; k_ch := [49]%N; k_from := 15; k_to := 20 |}]).
Proof. split; [repeat constructor|]. split; [repeat constructor|]. split; [repeat constructor; cbn; intuition discriminate|vm_compute; reflexivity]. Qed.
