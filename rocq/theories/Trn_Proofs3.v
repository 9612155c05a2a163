(** Proofs about Trn_Model: speakers and the alignment of all utterances. *)
From Coq Require Import List NArith ZArith Arith Bool Lia Permutation Sorted.
From Verif Require Import Base Chan_Model Read_Model Read_Spec Read_Proofs Read_Proofs3 Trn_Model Trn_Spec Trn_Proofs Trn_Proofs2.
Import ListNotations.
Local Open Scope res_scope.

Lemma chr_is c l : match chr c l with Some i => exists a b, l = a ++ c :: b /\ length a = i /\ ~ In c a | None => ~ In c l end.
Proof.
  induction l as [|x l IH]; cbn [chr]; [auto|]. destruct (N.eqb_spec x c) as [->|NE]; [exists [], l; auto|].
  destruct (chr c l) as [i|]; cbn [option_map].
  - destruct IH as (a & b & -> & <- & Na). exists (x :: a), b. split; [reflexivity|]. split; [reflexivity|]. intros [E|I]; auto.
  - intros [E|I]; auto.
Qed.
Lemma chr_some c a b : ~ In c a -> chr c (a ++ c :: b) = Some (length a).
Proof.
  induction a as [|x a IH]; intros NI; cbn [app chr length]; [rewrite N.eqb_refl; reflexivity|].
  rewrite (proj2 (N.eqb_neq _ _)) by (intro; apply NI; left; assumption). rewrite IH by (intro; apply NI; right; assumption). reflexivity.
Qed.
Lemma chr_none c l : ~ In c l -> chr c l = None.
Proof. intros NI. pose proof (chr_is c l) as H. destruct (chr c l); [|reflexivity]. destruct H as (a & b & -> & _). exfalso. apply NI, in_app_iff. right. left. reflexivity. Qed.

Definition shaped (id : str) : Prop := id = [] \/ exists r, id = 40%N :: r.
Lemma utterance_shape l t i : Utterance l t i -> shaped i.
Proof. intros [? ? ?|text x y ? ? ?]; [left; reflexivity|right; eauto]. Qed.

Lemma to_speaker_short s : short s -> to_speaker s = Ok s.
Proof. unfold short, to_speaker. intros H. rewrite (proj2 (Nat.ltb_lt _ _) H). reflexivity. Qed.
Lemma to_speaker_ok s x : to_speaker s = Ok x -> x = s /\ short s.
Proof. unfold to_speaker, short. destruct (Nat.ltb_spec (length s) LOAD_BUFF_LEN); intros E; [injection E as <-; auto|discriminate]. Qed.

Lemma three (s r : str) : (length s = 3 \/ (length s < 3 /\ r = []))%nat -> firstn 3 (s ++ r) = s.
Proof.
  intros [E|[L ->]].
  - rewrite <- E, firstn_app, Nat.sub_diag, firstn_all. cbn [firstn]. apply app_nil_r.
  - rewrite app_nil_r. apply firstn_all2. lia.
Qed.
Lemma dash_field c0 spk c r : firstn (length (c0 :: spk) - 1) (skipn 1 (c0 :: spk ++ c :: r)) = (spk : str).
Proof.
  cbn [length skipn]. replace (S (length spk) - 1)%nat with (length spk) by lia.
  rewrite firstn_app, Nat.sub_diag, firstn_all. cbn [firstn]. apply app_nil_r.
Qed.
Lemma extract_ok idt id prev s : speaker_of idt id prev s -> short s -> extract_speaker idt id prev = Ok s.
Proof.
  intros H SH. destruct idt; cbn [speaker_of extract_speaker] in *.
  1,3: destruct H as (c & r & -> & L); rewrite three by exact L; apply to_speaker_short, SH.
  4: subst s; apply to_speaker_short, SH.
  all: destruct H as [(c & r & -> & N1 & N2)|[(N0 & c & r & -> & N1 & N2)|(N0 & N1 & ->)]].
  all: try (rewrite !chr_none by assumption; reflexivity).
  all: try (rewrite (chr_none 45) by exact N0).
  all: match goal with |- context [chr ?x (?c :: ?s ++ ?x :: ?r)] =>
    replace (chr x (c :: s ++ x :: r)) with (Some (length (c :: s))) by (symmetry; apply (chr_some x (c :: s) r); intros [E|I]; [congruence|contradiction]) end.
  all: rewrite dash_field; apply to_speaker_short, SH.
Qed.
Lemma extract_is idt id prev s : shaped id -> extract_speaker idt id prev = Ok s -> speaker_of idt id prev s /\ (short prev -> short s).
Proof.
  intros SH E. destruct idt; cbn [speaker_of extract_speaker] in *.
  1,3: destruct id as [|c r]; [discriminate|]; apply to_speaker_ok in E; destruct E as [-> K]; split; [|auto];
    exists c, (skipn 3 r); rewrite firstn_skipn; split; [reflexivity|]; rewrite firstn_length;
    destruct (Nat.le_gt_cases 3 (length r)); [left; lia|right; split; [lia|apply skipn_all2; lia]].
  4: apply to_speaker_ok in E; destruct E as [-> K]; auto.
  all: pose proof (chr_is 45 id) as H1; pose proof (chr_is 95 id) as H2.
  all: destruct (chr 45 id) as [p|].
  1,3,5: destruct H1 as (a & b & E1 & <- & NA); apply to_speaker_ok in E; destruct E as [-> K]; split; [left|auto];
    destruct a as [|c a]; [destruct SH as [X|(r & X)]; rewrite X in E1; discriminate|];
    exists c, b; subst id; cbn [app]; rewrite dash_field; split; [reflexivity|]; split; intro; apply NA; [left; congruence|right; assumption].
  all: destruct (chr 95 id) as [p|].
  1,3,5: destruct H2 as (a & b & E1 & <- & NA); apply to_speaker_ok in E; destruct E as [-> K]; split; [right; left; split; [exact H1|]|auto];
    destruct a as [|c a]; [destruct SH as [X|(r & X)]; rewrite X in E1; discriminate|];
    exists c, b; subst id; cbn [app]; rewrite dash_field; split; [reflexivity|]; split; intro; apply NA; [left; congruence|right; assumption].
  all: injection E as <-; split; [right; right; auto|auto].
Qed.
Lemma speaker_total idt id prev : shaped id -> (id = [] -> idt <> WSJ /\ idt <> ATIS) -> exists s, speaker_of idt id prev s /\ (length s <= Nat.max (length id) (length prev))%nat.
Proof.
  intros SH NE. destruct idt; cbn [speaker_of].
  1,3: destruct id as [|c r]; [destruct (NE eq_refl); congruence|]; exists (firstn 3 r); split; [|rewrite firstn_length; cbn [length]; lia];
    exists c, (skipn 3 r); rewrite firstn_skipn; split; [reflexivity|]; rewrite firstn_length;
    destruct (Nat.le_gt_cases 3 (length r)); [left; lia|right; split; [lia|apply skipn_all2; lia]].
  4: exists id; split; [reflexivity|lia].
  all: pose proof (chr_is 45 id) as H1; pose proof (chr_is 95 id) as H2.
  all: destruct (chr 45 id) as [p|].
  1,3,5: destruct H1 as (a & b & E1 & <- & NA);
    destruct a as [|c a]; [destruct SH as [X|(r & X)]; rewrite X in E1; discriminate|];
    exists a; subst id; split; [left; exists c, b; split; [reflexivity|]; split; intro; apply NA; [left; congruence|right; assumption]|];
    cbn [app length]; rewrite app_length; lia.
  all: destruct (chr 95 id) as [p|].
  1,3,5: destruct H2 as (a & b & E1 & <- & NA);
    destruct a as [|c a]; [destruct SH as [X|(r & X)]; rewrite X in E1; discriminate|];
    exists a; subst id; split; [right; left; split; [exact H1|]; exists c, b; split; [reflexivity|]; split; intro; apply NA; [left; congruence|right; assumption]|];
    cbn [app length]; rewrite app_length; lia.
  all: exists prev; split; [right; right; auto|lia].
Qed.

Lemma fits_iff R H : Fits R H <-> Fit R H.
Proof.
  unfold Fits, Fit. split.
  - intros (A & B). split; [exact A|]. split.
    + intros id J. destruct (B id J) as (t & Ft & _). apply first_in in Ft. apply (in_map snd) in Ft. exact Ft.
    + intros id J (t & t' & Ft & I & NP). destruct (B id J) as (t0 & F0 & P). assert (t = t0) by (eapply first_fun; eauto). subst. apply NP, P, I.
  - intros (A & B & C). split; [exact A|]. intros id J. specialize (B id J). apply in_map_iff in B. destruct B as ((u, id') & E & I). cbn [snd] in E. subst id'.
    destruct (first_last _ _ _ I) as (t & Ft). exists t. split; [exact Ft|]. intros t' I'. apply prefix_ok. destruct (prefix_of t' t) eqn:P; [reflexivity|].
    exfalso. apply (C id J). exists t, t'. split; [exact Ft|]. split; [exact I'|]. intro X. apply prefix_ok in X. congruence.
Qed.

Lemma transcripts_lines cs bytes us : Transcripts cs bytes us ->
  exists ls, Utts bytes ls /\ Forall2 (fun l u => remove_id (fold_case cs l) = Ok u) ls us /\ Forall (fun u => shaped (snd u)) us.
Proof.
  intros (ls & U & F). exists ls. split; [exact U|]. clear U. induction F as [|l (t, i) ls us H F IH]; [split; constructor|]. destruct IH as [I1 I2]. split.
  - constructor; [|exact I1]. rewrite fold_cased. apply remove_id_ok, H.
  - constructor; [|exact I2]. eapply utterance_shape, H.
Qed.
Lemma cased_remove cs l t i : remove_id (fold_case cs l) = Ok (t, i) ->
  exists t0 i0, remove_id l = Ok (t0, i0) /\ fold_case cs t0 = t /\ fold_case cs i0 = i.
Proof.
  rewrite fold_cased, remove_id_cased. destruct (remove_id l) as [(t0, i0)| | |]; cbn [rbind]; try discriminate. intros E. injection E as <- <-. exists t0, i0. auto.
Qed.

Section Run.
  Variables (ids : list str) (cs : bool) (idt : id_type) (R : list (str * str)) (set : list (option str)) (num : nat).
  Hypothesis S : StronglySorted le ids.
  Hypothesis I : Inv ids R set num false.
  Hypothesis RC : Forall (fun u => fold_case cs (fst u) = fst u) R.

  Lemma run_ok hl : forall H prev spks, Forall2 (fun l u => remove_id (fold_case cs l) = Ok u) hl H ->
    (forall id, In id (map snd H) -> In id ids /\ In id (map snd R)) ->
    Speakers idt prev (map snd H) spks -> Forall short spks ->
    exists us, align_utts cs idt ids set hl prev = Ok us /\ Paired R H us /\ map u_spk us = spks.
  Proof.
    induction hl as [|l hl IH]; intros H prev spks F J SP SH; inversion F as [|? (t, id) ? H' E F' E1 E2]; subst.
    - inversion SP; subst. exists []. split; [reflexivity|]. split; [constructor|reflexivity].
    - cbn [map snd] in SP. inversion SP as [|? ? s ? ss HS SP' E1 E2]; subst. inversion SH as [|? ? SH1 SH2]; subst.
      destruct (cased_remove _ _ _ _ E) as (t0 & i0 & E0 & <- & <-). cbn [align_utts]. rewrite E0. cbn [rbind].
      rewrite (extract_ok _ _ _ _ HS SH1). cbn [rbind].
      destruct (J (fold_case cs i0) (or_introl eq_refl)) as [J1 J2]. destruct (bs_in ids S _ J1) as (i & B). rewrite B. cbn [rbind].
      apply in_map_iff in J2. destruct J2 as ((u, id') & Eu & Iu). cbn [snd] in Eu. subst id'. destruct (first_last _ _ _ Iu) as (t1 & Ft).
      rewrite (proj2 (i_set _ _ _ _ _ I i t1)) by eauto.
      destruct (IH H' s ss F') as (us & -> & P & MS); [intros id Hid; apply J; right; exact Hid|exact SP'|exact SH2|].
      cbn [rbind]. eexists. split; [reflexivity|]. split; [|cbn [map u_spk]; rewrite MS; reflexivity]. constructor; [|exact P].
      cbn [u_id u_hyp u_ref fst snd]. split; [reflexivity|]. split; [reflexivity|].
      rewrite Forall_forall in RC. pose proof (RC _ (first_in _ _ _ Ft)) as X. cbn [fst] in X. rewrite X. exact Ft.
  Qed.
  Lemma run_speakers hl : forall H prev us, Forall2 (fun l u => remove_id (fold_case cs l) = Ok u) hl H -> Forall (fun u => shaped (snd u)) H ->
    align_utts cs idt ids set hl prev = Ok us -> Speakers idt prev (map u_id us) (map u_spk us) /\ map u_id us = map snd H /\ (short prev -> Forall short (map u_spk us)).
  Proof.
    induction hl as [|l hl IH]; intros H prev us F SH E; inversion F as [|? (t, id) ? H' R0 F' E1 E2]; subst; cbn [align_utts] in E.
    - injection E as <-. repeat split; constructor.
    - inversion SH as [|? ? S1 S2]; subst. destruct (cased_remove _ _ _ _ R0) as (t0 & i0 & E0 & <- & <-). rewrite E0 in E. cbn [rbind] in E.
      destruct (extract_speaker idt (fold_case cs i0) prev) as [s| | |] eqn:ES; cbn [rbind] in E; try discriminate.
      destruct (bsearch (fold_case cs i0) ids) as [[i|]| | |]; cbn [rbind] in E; try discriminate.
      destruct (nth_error set i) as [[t1|]|]; try discriminate.
      destruct (align_utts cs idt ids set hl s) as [us'| | |] eqn:EU; cbn [rbind] in E; try discriminate. injection E as <-.
      destruct (extract_is _ _ _ _ S1 ES) as [A B]. destruct (IH H' s us' F' S2 EU) as (C & D & G). cbn [map u_id u_spk].
      split; [constructor; assumption|]. split; [cbn [snd]; rewrite D; reflexivity|]. intro P. constructor; [apply B, P|apply G, B, P].
  Qed.
End Run.
