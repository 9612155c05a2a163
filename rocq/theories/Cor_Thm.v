(** C104: several systems compared, sentence by sentence. *)
From Coq Require Import List Arith ZArith NArith QArith Bool Permutation Lia Lqa.
From Verif Require Import Base Text_Model Text_Spec NetDp_Model Word_Model Order_Model Order_Spec Order_Proofs1 Order_Thm Path_Model Path_Spec Scores_Model Scores_Spec Alex_Model Alex_Spec
  Alex_Proofs1 Alex_Proofs2 Alex_Proofs3 Dtl_Model Dtl_Spec Dtl_Thm Cor_Model Cor_Spec Cor_Proofs1 Cor_Proofs2 Cor_Proofs3 Cor_Proofs4 Cor_Proofs5.
Import ListNotations.
Local Open Scope res_scope.
Local Open Scope nat_scope.

Lemma rows_fst e diff : forall cs tp st out st', print_rows e diff cs tp st = Ok (out, st') -> map fst out = cs.
Proof.
  induction cs as [|ps cs IH]; intros tp st out st' H; cbn [print_rows] in H; [injection H as <- _; reflexivity|]. cbv zeta in H.
  destruct (if diff then _ else _) as [tp'| | |]; try discriminate. cbn [rbind] in H.
  destruct (if tp' then _ else _) as [[w st1]| | |]; try discriminate. cbn [rbind] in H.
  match goal with H : rbind ?x _ = _ |- _ => destruct x as [[out' st2]| | |] eqn:E; try discriminate end. cbn [rbind] in H. injection H as <- _. cbn. f_equal. eapply IH. exact E.
Qed.
Lemma groups_fst e diff : forall cs st out st', print_groups e diff cs st = Ok (out, st') -> map (map fst) out = cs.
Proof.
  induction cs as [|c cs IH]; intros st out st' H; cbn [print_groups] in H; [injection H as <- _; reflexivity|].
  destruct (print_rows e diff c true st) as [[o st1]| | |] eqn:E; try discriminate. cbn [rbind] in H.
  destruct (print_groups e diff cs st1) as [[os st2]| | |] eqn:E2; try discriminate. cbn [rbind] in H. injection H as <- _. cbn. f_equal; [eapply rows_fst; exact E|eapply IH; exact E2].
Qed.
(** Whatever is printed, the rows are the sentences in common, speaker by speaker in the order of the
    first system, up to the first speaker that is not in common. *)
Theorem C104_rows : forall qsort e diff s0 ss u, dump qsort e diff s0 ss = Ok u -> map (map fst) (u_rows u) = map snd (common s0 ss).
Proof.
  intros q e diff s0 ss u H. unfold dump in H. destruct (located s0 ss) as (c & Ec & F & _). rewrite Ec in H. cbn [rbind] in H. destruct (length ss <? 100); [|discriminate].
  rewrite (dump_groups_eq e diff _ _ _ _ _ _ _ F) in H. match goal with H : rbind ?x _ = _ |- _ => destruct x as [[out st]| | |] eqn:E; try discriminate end.
  cbn [rbind] in H. destruct (lex_printout q (t_lex st) 1) as [l| | |]; try discriminate. cbn [rbind] in H. injection H as <-. cbn. eapply groups_fst. exact E.
Qed.
Print Assumptions C104_rows.

(** If all systems have the speakers of the first, none is left out; and for a speaker a row is made of
    exactly those sentences of the first system whose identifier every other system has. *)
Lemma all_some {A B} (f : A -> option B) l qs : Cor_Spec.all (map f l) = Some qs <-> Forall2 (fun x q => f x = Some q) l qs.
Proof.
  revert qs. induction l as [|x l IH]; intros qs; cbn [map Cor_Spec.all].
  - split; [intros H; injection H as <-; constructor|intros H; inversion H; reflexivity].
  - destruct (f x) as [y|] eqn:E; [|split; [discriminate|intros H; inversion H; congruence]]. destruct (Cor_Spec.all (map f l)) as [ys|] eqn:E2.
    + split; [intros H; injection H as <-; constructor; [exact E|apply IH; reflexivity]|]. intros H. inversion H as [|? ? ? ? H1 H2]; subst. apply IH in H2. congruence.
    + split; [discriminate|]. intros H. inversion H as [|? ? ? ? H1 H2]; subst. apply IH in H2. discriminate.
Qed.
Lemma spoken_in n (s : system) : In n (map fst s) -> exists ps, spoken n s = Some ps /\ In (n, ps) s.
Proof.
  unfold spoken. induction s as [|g s IH]; [intros []|]. intros [H|H]; cbn [find]; unfold eqb in *.
  - subst n. destruct (list_eq_dec N.eq_dec (fst g) (fst g)); [|congruence]. exists (snd g). split; [reflexivity|left; destruct g; reflexivity].
  - destruct (list_eq_dec N.eq_dec (fst g) n) as [<-|Ne]; [exists (snd g); split; [reflexivity|left; destruct g; reflexivity]|].
    destruct (IH H) as (ps & E & I). exists ps. split; [exact E|right; exact I].
Qed.
Theorem C104_common : forall s0 ss, same_speakers s0 ss ->
  Forall2 (fun g r => fst r = fst g /\ exists others, Forall2 (fun s o => spoken (fst g) s = Some o /\ In (fst g, o) s) ss others
     /\ forall row, In row (snd r) <-> exists p qs, row = p :: qs /\ In p (snd g) /\ Forall2 (fun o q => with_id (s_id p) o = Some q) others qs) s0 (common s0 ss).
Proof.
  intros s0 ss. induction s0 as [|g s0 IH]; intros H; cbn [common]; [constructor|].
  assert (A : exists os, Forall2 (fun s o => spoken (fst g) s = Some o /\ In (fst g, o) s) ss os).
  { assert (Hg : forall s, In s ss -> In (fst g) (map fst s)) by (intros s Hs; apply (H g s); [left; reflexivity|exact Hs]). clear - Hg.
    induction ss as [|s ss IH]; [exists []; constructor|]. destruct IH as (os & F); [intros x Hx; apply Hg; right; exact Hx|].
    destruct (spoken_in (fst g) s) as (ps & E & I); [apply Hg; left; reflexivity|]. exists (ps :: os). constructor; auto. }
  destruct A as (os & F). assert (E : Cor_Spec.all (map (spoken (fst g)) ss) = Some os).
  { apply all_some. clear - F. induction F as [|? ? ? ? [? ?]]; constructor; auto. }
  rewrite E. constructor; [|apply IH; intros x s Hx; apply H; right; exact Hx]. cbn [fst snd]. split; [reflexivity|]. exists os. split; [exact F|].
  intros row. unfold sets. rewrite in_flat_map. split.
  - intros (p & Hp & Hr). destruct (Cor_Spec.all (map (with_id (s_id p)) os)) as [qs|] eqn:Eq; [|destruct Hr]. destruct Hr as [<-|[]]. exists p, qs. apply all_some in Eq. auto.
  - intros (p & qs & -> & Hp & Fq). exists p. split; [exact Hp|]. apply all_some in Fq. rewrite Fq. left; reflexivity.
Qed.
Print Assumptions C104_common.

(** Two to a hundred systems whose common sentences have the same reference words: the analysis counts
    the reference words of every common sentence and those that no system has right, and the summary
    their sums, the accuracy, and the words themselves, each once. *)
Definition comparable (e : enc) (s0 : system) (ss : list system) : Prop :=
  Forall (fun r => Forall (fun ps => Forall (good_steps e) (map s_steps ps) /\ same_reference (map s_steps ps)) (snd r)) (common s0 ss).
Definition all_missed (s0 : system) (ss : list system) : list (list N) :=
  flat_map (fun ps => missed (map s_steps ps)) (concat (map snd (common s0 ss))).
Lemma row_length s0 ss : Forall (fun r => Forall (fun ps : list sentence => length ps = S (length ss)) (snd r)) (common s0 ss).
Proof.
  induction s0 as [|g s0 IH]; cbn [common]; [constructor|]. destruct (Cor_Spec.all (map (spoken (fst g)) ss)) as [os|] eqn:E; [|constructor]. constructor; [|exact IH].
  cbn [snd]. apply all_some in E. apply Forall_forall. intros row Hr. unfold sets in Hr. apply in_flat_map in Hr as (p & _ & Hr).
  destruct (Cor_Spec.all (map (with_id (s_id p)) os)) as [qs|] eqn:Eq; [|destruct Hr]. destruct Hr as [<-|[]]. apply all_some in Eq. cbn. f_equal.
  assert (L : forall {A B} (R : A -> B -> Prop) u v, Forall2 R u v -> length u = length v) by (intros A B R u v X; induction X; cbn; auto).
  rewrite <- (L _ _ _ _ _ Eq). symmetry. exact (L _ _ _ _ _ E).
Qed.
Lemma ready_all e s0 ss : 1 <= length ss -> comparable e s0 ss -> Forall (Forall (ready e)) (map snd (common s0 ss)).
Proof.
  intros L C. unfold comparable in C. pose proof (row_length s0 ss) as R. apply Forall_map. rewrite Forall_forall in *. intros r Hr. specialize (C r Hr). specialize (R r Hr).
  rewrite Forall_forall in *. intros ps Hp. destruct (C ps Hp) as [C1 C2]. split; [rewrite (R ps Hp); lia|]. split; [exact C1|exact C2].
Qed.
Lemma summary_ok : forall qsort, qsort_contract qsort -> forall e s0 ss, 1 <= length ss -> length ss < 100 -> comparable e s0 ss ->
  (Z.of_nat (length (all_missed s0 ss)) < 2 ^ 31)%Z ->
  exists u vs, dump qsort e false s0 ss = Ok u /\ summary_of e (map snd (common s0 ss)) u /\ lists e vs (u_list u) /\ stands vs (all_missed s0 ss).
Proof.
  intros q Hq e s0 ss L1 L2 C Lm. unfold dump. destruct (located s0 ss) as (c & -> & F & _). cbn [rbind]. destruct (Nat.ltb_spec (length ss) 100); [|lia].
  rewrite (dump_groups_eq e false _ _ _ _ _ _ _ F).
  destruct (groups_print e (map snd (common s0 ss)) {| t_ref := 0; t_err := 0; t_totref := 0; t_toterr := 0; t_lex := lex_init 1000 |} [] [] []) as (st & so & vs & -> & Iv & St & T1 & T2).
  { apply ready_all; assumption. }
  { apply init_inv. apply Nat.lt_0_succ. }
  { split; [reflexivity|tauto]. }
  cbn [rbind]. cbn [t_totref t_toterr Nat.add app] in *. change (flat_map row_missed (concat (map snd (common s0 ss)))) with (all_missed s0 ss) in *.
  destruct (printout_ok q Hq e vs (t_lex st) so 1 Iv) as (l & -> & Ls); [destruct St as [-> _]; exact Lm|lia|]. cbn [rbind]. eexists _, vs. split; [reflexivity|].
  cbn [u_list]. split; [|split; [exact Ls|exact St]]. destruct Ls.
  constructor; cbn [u_rows u_ref u_err u_acc u_list].
  - reflexivity.
  - exact T1.
  - exact T2.
  - destruct (t_totref st) as [|n]; [reflexivity|]. split; [lia|]. rewrite <- (inject_Z_plus (Z.of_nat (S n)) (- Z.of_nat (t_toterr st))) || idtac.
    unfold Z.sub. rewrite inject_Z_plus, inject_Z_opp. assert (P : (0 < inject_Z (Z.of_nat (S n)))%Q) by (unfold Qlt; cbn; lia). field. intros X. rewrite X in P. apply (Qlt_irrefl 0). exact P.
  - intros w. rewrite <- ls_each. destruct St as [_ St]. symmetry. apply St.
  - exact ls_once.
  - exact ls_total.
  - rewrite ls_sum, T2. destruct St as [-> _]. reflexivity.
Qed.
Theorem C104_summary : forall qsort, qsort_contract qsort -> forall e s0 ss, 1 <= length ss -> length ss < 100 -> comparable e s0 ss ->
  (Z.of_nat (length (all_missed s0 ss)) < 2 ^ 31)%Z ->
  exists u, dump qsort e false s0 ss = Ok u /\ summary_of e (map snd (common s0 ss)) u.
Proof. intros q Hq e s0 ss L1 L2 C Lm. destruct (summary_ok q Hq e s0 ss L1 L2 C Lm) as (u & vs & A & B & _). exists u. auto. Qed.
Print Assumptions C104_summary.

(** The counts beside the words are right as long as no word is missed twice. *)
Theorem C104_counts : forall qsort, qsort_contract qsort -> forall e s0 ss, 1 <= length ss -> length ss < 100 -> comparable e s0 ss ->
  (Z.of_nat (length (all_missed s0 ss)) < 2 ^ 31)%Z -> NoDup (all_missed s0 ss) ->
  exists u, dump qsort e false s0 ss = Ok u /\ lists e (all_missed s0 ss) (u_list u).
Proof.
  intros q Hq e s0 ss L1 L2 C Lm ND. destruct (summary_ok q Hq e s0 ss L1 L2 C Lm) as (u & vs & A & _ & [] & St1 & St2). exists u. split; [exact A|].
  assert (P : Permutation vs (all_missed s0 ss)).
  { symmetry. apply NoDup_Permutation_bis; [exact ND|lia|]. intros w Hw. apply St2; exact Hw. }
  constructor; try assumption.
  - rewrite ls_sum. rewrite St1. reflexivity.
  - intros w. rewrite <- ls_each. symmetry. apply St2.
  - intros k n s I. rewrite (ls_count k n s I). f_equal. unfold times. rewrite (Permutation_count_occ (list_eq_dec N.eq_dec)) in P. apply P.
Qed.
Print Assumptions C104_counts.

(** ** References that differ *)
(** A difference between words that both references have is found, and the paths are shown one by one. *)
Theorem C104_different : forall e st l0 l k v w, good_steps e l0 -> good_steps e l ->
  nth_error (refs l0) k = Some v -> nth_error (refs l) k = Some w -> v <> w -> multi_print e [l0; l] st = Ok (OneByOne, st).
Proof.
  intros e st l0 l k v w G0 G1 Hv Hw Ne. cbn [multi_print all_same]. rewrite (same_refs_diff e _ _ _ k v w); try assumption; [reflexivity|unfold wstep; lia].
Qed.
Print Assumptions C104_different.
(** The difference of the scores is right for paths of the same length. *)
Lemma ref_err_ok : forall (l : list wstep) r x, ref_err (length l) l r x = Ok (r + (number PCorr l + number PSub l + number PDel l), x + errors l).
Proof.
  unfold errors, number. induction l as [|[[a b] ev] l IH]; intros r x; cbn [ref_err length filter]; [rewrite !Nat.add_0_r; reflexivity|]. rewrite IH.
  destruct ev; cbn [is_eval snd length]; f_equal; f_equal; lia.
Qed.
Theorem C104_score_diff : forall (l0 : list (step word)) ls, Forall (fun l => length l = length l0) ls -> Forall (Forall well_formed_step) (l0 :: ls) ->
  exists b, scores_are_diff (l0 :: ls) = Ok b /\ (b = true <-> exists l, In l ls /\ (ref_words l, errors l) <> (ref_words l0, errors l0)).
Proof.
  intros l0 ls F W. inversion W as [|? ? W0 Ws]; subst. cbn [scores_are_diff]. pose proof (ref_err_ok l0 0 0) as E0. unfold wstep in *. rewrite E0. cbn [rbind Nat.add]. clear E0.
  destruct (Scores_Thm.counts_add l0 W0) as (A0 & _). rewrite <- A0. clear W W0 A0.
  induction ls as [|l ls IH]; cbn [differs].
  - exists false. split; [reflexivity|]. split; [discriminate|]. intros (l & [] & _).
  - inversion F; subst. inversion Ws; subst. pose proof (ref_err_ok l 0 0) as E. unfold wstep in E. rewrite H1 in E. rewrite E. cbn [rbind Nat.add].
    destruct (Scores_Thm.counts_add l H3) as (A & _). rewrite <- A.
    destruct (Nat.eqb_spec (ref_words l0) (ref_words l)) as [Er|Nr]; cbn [negb orb].
    + destruct (Nat.eqb_spec (errors l0) (errors l)) as [Ee|Ne]; cbn [negb].
      * destruct (IH H2 H4) as (b & Eb & Hb). exists b. split; [exact Eb|]. rewrite Hb. split; [intros (x & Hx & Nx); exists x; split; [right; exact Hx|exact Nx]|].
        intros (x & [<-|Hx] & Nx); [exfalso; apply Nx; congruence|exists x; auto].
      * exists true. split; [reflexivity|]. split; [|reflexivity]. intros _. exists l. split; [left; reflexivity|]. congruence.
    + exists true. split; [reflexivity|]. split; [|reflexivity]. intros _. exists l. split; [left; reflexivity|]. congruence.
Qed.
Print Assumptions C104_score_diff.
(** The warnings name the speakers and sentences that are left out: of every system exactly the speakers
    that are not compared, and of every compared speaker exactly the sentences that are in no row. *)
Theorem C104_speakers : forall s0 ss c sc sy, locate_matched s0 ss = Ok c -> nth_error (s0 :: ss) sc = Some sy -> NoDup (map fst sy) ->
  exists out, unmatched_grp c sy sc = Ok out /\ NoDup out /\ forall n, In n out <-> In n (map fst sy) /\ ~ In n (map fst (common s0 ss)).
Proof.
  intros s0 ss c sc sy Hc Hs ND. destruct (located s0 ss) as (c' & Ec & _ & Ep). rewrite Hc in Ec. injection Ec as <-.
  rewrite (unmatched_grp_ok s0 ss c sc sy Ep Hs ND). eexists. split; [reflexivity|]. split.
  - clear Hs. induction sy as [|g sy IH]; cbn [filter map]; [constructor|]. inversion ND as [|? ? NI ND']; subst. destruct (negb _); [|apply IH; exact ND'].
    cbn [map]. constructor; [|apply IH; exact ND']. intros H. apply NI. apply in_map_iff in H as (h & Eh & H). apply filter_In in H as [H _]. rewrite <- Eh. apply in_map. exact H.
  - intros n. rewrite in_map_iff. split.
    + intros (g & <- & H). apply filter_In in H as [H1 H2]. split; [apply in_map; exact H1|]. intros H. apply negb_true_iff in H2. apply not_true_iff_false in H2. apply H2.
      apply existsb_exists. exists (fst g). split; [exact H|apply eqb_iff; reflexivity].
    + intros [H1 H2]. apply in_map_iff in H1 as (g & <- & H1). exists g. split; [reflexivity|]. apply filter_In. split; [exact H1|]. apply negb_true_iff, not_true_iff_false.
      intros H. apply H2. apply existsb_exists in H as (m & Hm & E). apply eqb_iff in E. rewrite E. exact Hm.
Qed.
Print Assumptions C104_speakers.
Theorem C104_sentences : forall s0 ss c sc sy gr n cs ps, locate_matched s0 ss = Ok c -> nth_error (s0 :: ss) sc = Some sy -> NoDup (map fst sy) ->
  nth_error (common s0 ss) gr = Some (n, cs) -> spoken n sy = Some ps -> NoDup (map s_id ps) ->
  exists out, unmatched_path c sy sc gr = Ok out /\ NoDup out
    /\ forall i, In i out <-> In i (map s_id ps) /\ ~ In (Some i) (map (fun row => option_map s_id (hd_error row)) cs).
Proof.
  intros s0 ss c sc sy gr n cs ps Hc Hs ND Hg Hp NDp. rewrite (unmatched_path_ok s0 ss c sc sy gr n cs ps Hc Hs ND Hg Hp NDp). eexists. split; [reflexivity|].
  destruct (common_sets s0 ss n cs) as (p0 & os & Es); [eapply nth_error_In; exact Hg|].
  assert (Hr : forall i, In i (map (fun row => s_id (hd no_path row)) cs) <-> In (Some i) (map (fun row => option_map s_id (hd_error row)) cs)).
  { intros i. assert (X : Forall (fun row : list sentence => row <> []) cs).
    { apply Forall_forall. intros row H. subst cs. unfold sets in H. apply in_flat_map in H as (p & _ & H). destruct (Cor_Spec.all _); [|destruct H]. destruct H as [<-|[]]. discriminate. }
    clear - X. induction X as [|row cs Hrow X IH]; [tauto|]. destruct row as [|p row]; [congruence|]. cbn. rewrite IH. split; (intros [H|H]; [left; congruence|right; exact H]). }
  split.
  - clear - NDp. induction ps as [|g sy IH]; cbn [filter map]; [constructor|]. inversion NDp as [|? ? NI ND']; subst. destruct (negb _); [|apply IH; exact ND'].
    cbn [map]. constructor; [|apply IH; exact ND']. intros H. apply NI. apply in_map_iff in H as (h & Eh & H). apply filter_In in H as [H _]. rewrite <- Eh. apply in_map. exact H.
  - intros i. rewrite <- Hr, in_map_iff. split.
    + intros (g & <- & H). apply filter_In in H as [H1 H2]. split; [apply in_map; exact H1|]. intros H. apply negb_true_iff in H2. apply not_true_iff_false in H2. apply H2.
      apply existsb_exists. exists (s_id g). split; [exact H|apply eqb_iff; reflexivity].
    + intros [H1 H2]. apply in_map_iff in H1 as (g & <- & H1). exists g. split; [reflexivity|]. apply filter_In. split; [exact H1|]. apply negb_true_iff, not_true_iff_false.
      intros H. apply H2. apply existsb_exists in H as (m & Hm & E). apply eqb_iff in E. rewrite E. exact Hm.
Qed.
Print Assumptions C104_sentences.

(** ** What does not hold *)
Definition tw (n : N) : word := text_word [n].
Definition right_step (n : N) : step word := (Some (tw n), Some (tw n), PCorr).
Definition wrong_step (n m : N) : step word := (Some (tw n), Some (tw m), PSub).
Definition extra_step (n : N) : step word := (None, Some (tw n), PIns).
Definition lost_step (n : N) : step word := (Some (tw n), None, PDel).
Definition sent (i : N) (l : list (step word)) : sentence := {| s_id := [i]; s_steps := l |}.
Definition plain_step (s : step word) : bool :=
  match s with
  | (Some a, Some b, PCorr) | (Some a, Some b, PSub) => forallb (fun b => (0 <? b)%N && (b <? 256)%N) (w_value a)
  | (Some a, None, PDel) => forallb (fun b => (0 <? b)%N && (b <? 256)%N) (w_value a)
  | (None, Some b, PIns) => true
  | _ => false
  end.
Lemma plain_good l : forallb plain_step l = true -> good_steps ASCII l.
Proof.
  intros H. rewrite forallb_forall in H. split; [apply Forall_forall; intros [[[a|] [b|]] []] Hx; specialize (H _ Hx); try discriminate; cbn; split; congruence|].
  unfold refs, verdicts. apply Forall_forall. intros w Hw. apply in_map_iff in Hw as ([v t] & <- & Hw). apply in_flat_map in Hw as ([[[a|] b] ev] & Hs & Hw); [|destruct Hw].
  destruct Hw as [Hw|[]]. injection Hw as <- _. specialize (H _ Hs). cbn [fst]. apply ascii_words. destruct b as [b|], ev; try discriminate; exact H.
Qed.
(** A speaker that all systems have is left out if one before it is missing in some system. *)
Theorem C104_common_speaker_refuted : exists s0 ss n u, In n (map fst s0) /\ (forall s, In s ss -> In n (map fst s)) /\ dump isort ASCII false s0 ss = Ok u /\ u_rows u = [].
Proof.
  set (p := sent 49%N [right_step 97%N]). exists [([65%N], [p]); ([66%N], [p])], [[([66%N], [p])]], [66%N]. eexists. split; [cbn; tauto|].
  split; [intros s [<-|[]]; cbn; tauto|]. split; [vm_compute; reflexivity|reflexivity].
Qed.
Print Assumptions C104_common_speaker_refuted.
(** Two references are taken for identical when one is only the beginning of the other. *)
Theorem C104_identical_refuted : exists (l0 l : list (step word)), good_steps ASCII l0 /\ good_steps ASCII l /\ refs l0 <> refs l /\ all_same ASCII l0 [l] = Ok true.
Proof.
  exists [right_step 97%N], [right_step 97%N; right_step 98%N].
  split; [apply plain_good; reflexivity|].
  split; [apply plain_good; reflexivity|].
  split; [discriminate|reflexivity].
Qed.
Print Assumptions C104_identical_refuted.
(** A path that ends with an insertion beside one whose reference goes on: the step after the last is read. *)
Theorem C104_end_of_path_refuted : exists (l0 l : list (step word)), good_steps ASCII l0 /\ good_steps ASCII l /\ all_same ASCII l0 [l] = Undef.
Proof.
  exists [right_step 97%N; extra_step 99%N], [right_step 97%N; right_step 98%N].
  split; [apply plain_good; reflexivity|].
  split; [apply plain_good; reflexivity|].
  reflexivity.
Qed.
Print Assumptions C104_end_of_path_refuted.
(** The counts beside the missed words are wrong when a word is missed again after an insertion in front of
    it in the alphabet: here "a" is missed twice and "b" once, and the list says the opposite. *)
Theorem C104_repeated_refuted : exists s0 ss u, comparable ASCII s0 ss /\ dump isort ASCII false s0 ss = Ok u
  /\ all_missed s0 ss = [[98%N]; [97%N]; [97%N]] /\ map (fun x => (snd (fst x), snd x)) (li_lines (u_list u)) = [(2%Z, [98%N]); (1%Z, [97%N])].
Proof.
  set (p := sent 49%N [lost_step 98%N; lost_step 97%N; lost_step 97%N]). exists [([65%N], [p])], [[([65%N], [p])]]. eexists.
  split; [|split; [vm_compute; reflexivity|split; reflexivity]].
  constructor; [|constructor]. constructor; [|constructor]. split; [repeat (constructor; [apply plain_good; reflexivity|]); constructor|].
  intros l [<-|[<-|[]]]; reflexivity.
Qed.
Print Assumptions C104_repeated_refuted.
(** Two scores can differ without being called different, and a shorter path is read past its end. *)
Theorem C104_score_diff_refuted : (exists (l0 l : list (step word)), good_steps ASCII l0 /\ good_steps ASCII l /\ errors l0 <> errors l /\ scores_are_diff [l0; l] = Ok false)
  /\ exists (l0 l : list (step word)), good_steps ASCII l0 /\ good_steps ASCII l /\ refs l0 = refs l /\ scores_are_diff [l0; l] = Undef.
Proof.
  split.
  - exists [right_step 97%N], [right_step 97%N; extra_step 98%N]. do 2 (split; [apply plain_good; reflexivity|]). split; [discriminate|reflexivity].
  - exists [right_step 97%N; extra_step 98%N], [right_step 97%N]. do 2 (split; [apply plain_good; reflexivity|]). split; reflexivity.
Qed.
Print Assumptions C104_score_diff_refuted.
(** When only sentences with different scores are asked for, the first sentence without a difference hides
    the different ones that follow it, and the numbers of the last analysis are added to the totals again. *)
Theorem C104_only_different_refuted : exists s0 ss u p q, dump isort ASCII true s0 ss = Ok u /\ comparable ASCII s0 ss
  /\ In [p; q] (flat_map snd (common s0 ss)) /\ errors (s_steps p) <> errors (s_steps q) /\ In ([p; q], Skipped) (concat (u_rows u))
  /\ concat (map (fun x => match snd x with Analysis r _ => [r] | _ => [] end) (concat (u_rows u))) = [1] /\ u_ref u = 3.
Proof.
  set (g := fun i => sent i [right_step 97%N]). set (b := fun i => sent i [wrong_step 97%N 98%N]).
  exists [([65%N], [g 49%N; g 50%N; g 51%N])], [[([65%N], [b 49%N; g 50%N; b 51%N])]]. eexists. exists (g 51%N), (b 51%N).
  split; [vm_compute; reflexivity|]. split; [|split; [cbn; tauto|split; [discriminate|split; [cbn; tauto|split; reflexivity]]]].
  constructor; [|constructor]. repeat (constructor; [split; [repeat (constructor; [apply plain_good; reflexivity|]); constructor|intros l [<-|[<-|[]]]; reflexivity]|]). constructor.
Qed.
Print Assumptions C104_only_different_refuted.
(** A set of sentences with different references has no analysis, but the numbers of the set before it are
    added to the totals once more. *)
Theorem C104_totals_refuted : exists s0 ss u, dump isort ASCII false s0 ss = Ok u
  /\ map snd (concat (u_rows u)) = [Analysis 2 1; OneByOne] /\ u_ref u = 4 /\ u_err u = 2.
Proof.
  exists [([65%N], [sent 49%N [right_step 97%N; lost_step 98%N]; sent 50%N [right_step 97%N]])], [[([65%N], [sent 49%N [right_step 97%N; lost_step 98%N]; sent 50%N [right_step 98%N]])]].
  eexists. split; [vm_compute; reflexivity|]. repeat split.
Qed.
Print Assumptions C104_totals_refuted.

(** ** The hypotheses are met *)
Definition first_system : system := [([65%N], [sent 49%N [right_step 97%N; lost_step 98%N; extra_step 120%N; wrong_step 99%N 100%N]; sent 50%N [right_step 97%N]]); ([66%N], [sent 51%N [lost_step 101%N]])].
Definition second_system : system := [([66%N], [sent 51%N [extra_step 120%N; wrong_step 101%N 100%N]; sent 53%N []]); ([65%N], [sent 52%N [lost_step 97%N]; sent 49%N [lost_step 97%N; lost_step 98%N; right_step 99%N]]); ([67%N], [])].
Example C104_summary_ex : comparable ASCII first_system [second_system] /\ all_missed first_system [second_system] = [[98%N]; [101%N]]
  /\ NoDup (all_missed first_system [second_system]) /\ same_speakers first_system [second_system]
  /\ exists u, dump isort ASCII false first_system [second_system] = Ok u /\ map (map snd) (u_rows u) = [[Analysis 3 1]; [Analysis 1 1]] /\ u_ref u = 4 /\ u_err u = 2
     /\ (exists q, u_acc u = Some q /\ (q == 50)%Q) /\ map (fun x => (snd (fst x), snd x)) (li_lines (u_list u)) = [(1%Z, [98%N]); (1%Z, [101%N])].
Proof.
  split.
  { repeat (constructor; [cbn; repeat (constructor; [split; [repeat (constructor; [apply plain_good; reflexivity|]); constructor|intros l [<-|[<-|[]]]; reflexivity]|]); constructor|]). constructor. }
  split; [vm_compute; reflexivity|]. split; [vm_compute; repeat (constructor; [cbn; intros H; repeat (destruct H as [H|H]; try discriminate); exact H|]); constructor|].
  split; [intros g s [<-|[<-|[]]] [<-|[]]; cbn; tauto|].
  eexists. split; [vm_compute; reflexivity|]. split; [reflexivity|]. split; [reflexivity|]. split; [reflexivity|]. split; [eexists; split; reflexivity|reflexivity].
Qed.
Example C104_warnings_ex : exists c, locate_matched first_system [second_system] = Ok c /\ unmatched_grp c second_system 1 = Ok [[67%N]] /\ unmatched_grp c first_system 0 = Ok []
  /\ unmatched_path c first_system 0 0 = Ok [[50%N]] /\ unmatched_path c second_system 1 0 = Ok [[52%N]] /\ unmatched_path c second_system 1 1 = Ok [[53%N]]
  /\ NoDup (map fst second_system) /\ nth_error (common first_system [second_system]) 1 <> None.
Proof.
  eexists. split; [vm_compute; reflexivity|]. repeat (split; [reflexivity|]). split; [|vm_compute; discriminate].
  cbn. repeat (constructor; [cbn; intros H; repeat (destruct H as [H|H]; try discriminate); exact H|]). constructor.
Qed.
Example C104_different_ex : multi_print ASCII [[extra_step 120%N; right_step 97%N]; [right_step 98%N]] {| t_ref := 1; t_err := 1; t_totref := 1; t_toterr := 1; t_lex := lex_init 1000 |}
  = Ok (OneByOne, {| t_ref := 1; t_err := 1; t_totref := 1; t_toterr := 1; t_lex := lex_init 1000 |}).
Proof. reflexivity. Qed.
Example C104_score_diff_ex : scores_are_diff [[right_step 97%N; lost_step 98%N]; [lost_step 97%N; right_step 98%N]; [right_step 97%N; right_step 98%N]] = Ok true
  /\ scores_are_diff [[right_step 97%N; lost_step 98%N]; [lost_step 97%N; right_step 98%N]] = Ok false.
Proof. split; reflexivity. Qed.
