(** Proofs about the detailed reports. *)
From Coq Require Import List Arith ZArith NArith QArith Bool Permutation Lia Lqa.
From Verif Require Import Base Text_Model Text_Spec NetDp_Model Word_Model Order_Model Order_Spec Path_Model Path_Spec Summ_Model Scores_Model Scores_Spec
  Scores_Proofs Scores_Proofs2 Scores_Thm Alex_Model Alex_Spec Alex_Proofs1 Alex_Proofs3 Dtl_Model Dtl_Spec.
Import ListNotations.
Local Open Scope res_scope.
Local Open Scope nat_scope.

(** * The lists *)
Definition said (k : which) (l : list (step word)) : list (list N) :=
  match k with
  | Pairs => map written (substituted l)
  | Insertions => inserted l
  | Deletions => deleted l
  | Substitutions => map fst (substituted l)
  | Misrecognized => map snd (substituted l)
  end.
Lemma said_app k a b : said k (a ++ b) = said k a ++ said k b.
Proof. destruct k; cbn [said]; unfold inserted, deleted, substituted; rewrite ?flat_map_app, ?map_app; reflexivity. Qed.
Lemma count_all_app e a : forall b x, lex_count_all e x (a ++ b) = (let* x := lex_count_all e x a in lex_count_all e x b).
Proof.
  induction a as [|w a IH]; intros b x; cbn [app lex_count_all rbind]; [reflexivity|]. destruct (lex_count e x w); cbn [rbind]; [apply IH|reflexivity..].
Qed.
Lemma entry_ok k s : well_formed_step s -> Forall (fun p => (Z.of_nat (length (written p)) < 10000)%Z) (substituted [s]) ->
  entry k s = Ok (match said k [s] with [] => None | t :: _ => Some t end) /\ length (said k [s]) <= 1.
Proof.
  destruct s as [[[a|] [b|]] []]; cbn [well_formed_step]; intros W F; try (exfalso; destruct W; congruence);
    destruct k; cbn; try (split; [reflexivity|lia]).
  unfold pair_text, written in *. cbn [substituted flat_map app] in F. inversion F; subst. cbn [fst snd] in H1. unfold arrow in *. cbv zeta. unfold buffer_size.
  destruct (Z.ltb_spec (Z.of_nat (length (w_value a ++ [32; 61; 61; 62; 32]%N ++ w_value b))) 10000); [|lia]. cbn. split; [reflexivity|lia].
Qed.
Lemma locate_steps_ok e k l : Forall well_formed_step l -> short_pairs l -> forall x, locate_steps e k x l = lex_count_all e x (said k l).
Proof.
  unfold short_pairs. induction l as [|s l IH]; intros W F x; [destruct k; reflexivity|]. cbn [locate_steps]. inversion W; subst.
  assert (F2 : substituted (s :: l) = substituted [s] ++ substituted l) by (unfold substituted; cbn [flat_map]; rewrite app_nil_r; reflexivity).
  rewrite F2 in F. apply Forall_app in F as [Fa Fb]. destruct (entry_ok k s H1 Fa) as [-> L]. cbn [rbind].
  change (s :: l) with ([s] ++ l). rewrite said_app, count_all_app. destruct (said k [s]) as [|t [|u r]]; [|cbn [lex_count_all]|cbn in L; lia].
  - cbn [rbind lex_count_all]. apply IH; assumption.
  - destruct (lex_count e x t); cbn [rbind]; [apply IH; assumption|reflexivity..].
Qed.
Definition path_steps (ys : list sentence) : list (step word) := concat (map s_steps ys).
Lemma path_steps_app a b : path_steps (a ++ b) = path_steps a ++ path_steps b.
Proof. unfold path_steps. rewrite map_app, concat_app. reflexivity. Qed.
Lemma short_app a b : short_pairs (a ++ b) <-> short_pairs a /\ short_pairs b.
Proof. unfold short_pairs, substituted. rewrite flat_map_app, Forall_app. tauto. Qed.
Lemma locate_ok e k g ys : entries (g_path g) ys -> Forall well_formed_step (path_steps ys) -> short_pairs (path_steps ys) ->
  forall n p x, p + n = length ys -> locate e k x g n p = lex_count_all e x (said k (path_steps (skipn p ys))).
Proof.
  intros E W F. induction n as [|n IH]; intros p x H; cbn [locate].
  - rewrite skipn_all2 by lia. destruct k; reflexivity.
  - destruct (nth_error ys p) as [y|] eqn:Ey; [|apply nth_error_None in Ey; lia]. rewrite (kept_ok _ _ _ _ E Ey). cbn [rbind].
    assert (Es : skipn p ys = y :: skipn (p + 1) ys).
    { clear - Ey. revert p Ey. induction ys as [|z ys IH]; intros [|p] Ey; cbn in *; try discriminate; [congruence|]. apply IH; exact Ey. }
    rewrite Es. change (y :: skipn (p + 1) ys) with ([y] ++ skipn (p + 1) ys). rewrite path_steps_app, said_app, count_all_app.
    assert (Ep : path_steps [y] = s_steps y) by (unfold path_steps; cbn; apply app_nil_r). rewrite Ep.
    assert (Dec : path_steps ys = path_steps (firstn p ys) ++ s_steps y ++ path_steps (skipn (p + 1) ys)).
    { rewrite <- (firstn_skipn p ys) at 1. rewrite Es. change (y :: skipn (p + 1) ys) with ([y] ++ skipn (p + 1) ys). rewrite !path_steps_app, Ep. reflexivity. }
    rewrite Dec in W, F. rewrite !Forall_app in W. rewrite !short_app in F.
    rewrite locate_steps_ok by tauto. destruct (lex_count_all e x (said k (s_steps y))); cbn [rbind]; [|reflexivity..]. apply IH. lia.
Qed.
Lemma locate_all_ok e k : forall gs yss, Forall2 (fun g ys => entries (g_path g) ys) gs yss -> Forall well_formed_step (path_steps (concat yss)) ->
  short_pairs (path_steps (concat yss)) -> forall x, locate_all e k x gs = lex_count_all e x (said k (path_steps (concat yss))).
Proof.
  induction 1 as [|g ys gs yss E Fr IH]; intros W F x; cbn [locate_all concat].
  - destruct k; reflexivity.
  - cbn [concat] in W, F. rewrite path_steps_app in *. rewrite Forall_app in W. rewrite short_app in F. rewrite said_app, count_all_app.
    rewrite (locate_ok e k g ys E) by (tauto || (destruct E; lia)). cbn [skipn]. destruct (lex_count_all e x (said k (path_steps ys))); cbn [rbind]; [|reflexivity..].
    apply IH; tauto.
Qed.

(** * Counting *)
Lemma tally_ok l : forall t, tally_of t l = {| y_c := y_c t + number PCorr l; y_s := y_s t + number PSub l; y_n := y_n t + number PIns l; y_d := y_d t + number PDel l |}.
Proof.
  induction l as [|[[a b] ev] l IH]; intros t; cbn [tally_of].
  - unfold number; cbn. rewrite !Nat.add_0_r. destruct t; reflexivity.
  - rewrite IH. unfold number. destruct ev; cbn; f_equal; lia.
Qed.
Lemma number_pos ev l : 0 < number ev l <-> exists s, In s l /\ snd s = ev.
Proof.
  unfold number. split.
  - destruct (filter (is_eval ev) l) as [|s r] eqn:E; cbn; [lia|]. intros _. exists s. assert (I : In s (filter (is_eval ev) l)) by (rewrite E; left; reflexivity).
    apply filter_In in I as [I H]. split; [exact I|]. unfold is_eval in H. destruct (snd s), ev; try discriminate; reflexivity.
  - intros (s & I & E). assert (J : In s (filter (is_eval ev) l)) by (apply filter_In; split; [exact I|]; unfold is_eval; rewrite E; destruct ev; reflexivity).
    destruct (filter (is_eval ev) l); [destruct J|cbn; lia].
Qed.
Definition hasb (ev : eval) (y : sentence) : bool := 0 <? number ev (s_steps y).
Lemma hasb_spec ev y : hasb ev y = true <-> exists s, In s (s_steps y) /\ snd s = ev.
Proof. unfold hasb. rewrite Nat.ltb_lt. apply number_pos. Qed.
Lemma sentences_ok g ys : entries (g_path g) ys -> forall n p a b c, p + n = length ys ->
  sentences_with g n p (a, b, c) = Ok (a + nb (hasb PSub) (skipn p ys), b + nb (hasb PIns) (skipn p ys), c + nb (hasb PDel) (skipn p ys)).
Proof.
  intros E. induction n as [|n IH]; intros p a b c H; cbn [sentences_with].
  - rewrite skipn_all2 by lia. unfold nb. cbn. rewrite !Nat.add_0_r. reflexivity.
  - destruct (nth_error ys p) as [y|] eqn:Ey; [|apply nth_error_None in Ey; lia]. rewrite (kept_ok _ _ _ _ E Ey). cbn [rbind]. cbv zeta.
    assert (Es : skipn p ys = y :: skipn (p + 1) ys).
    { clear - Ey. revert p Ey. induction ys as [|z ys IH]; intros [|p] Ey; cbn in *; try discriminate; [congruence|]. apply IH; exact Ey. }
    rewrite IH by lia. rewrite Es, tally_ok. cbn [y_s y_n y_d tally0 Nat.add]. change (y :: skipn (p + 1) ys) with ([y] ++ skipn (p + 1) ys). rewrite !nb_app.
    unfold nb at 4 6 8. unfold hasb at 4 6 8. cbn [filter].
    f_equal. f_equal; [f_equal|]; match goal with |- context [0 <? ?k] => destruct (Nat.ltb_spec 0 k) end; cbn [length]; lia.
Qed.
Lemma count_perm {A} (P : A -> Prop) l l' k : Permutation l l' -> count_of P l k -> count_of P l' k.
Proof.
  intros Pm. revert k. induction Pm; intros k H.
  - exact H.
  - inversion H; subst; [constructor|apply co_no]; auto.
  - inversion H; subst; match goal with X : count_of _ (_ :: l) _ |- _ => inversion X; subst end;
      repeat first [apply co_yes; [assumption|]|apply co_no; [assumption|]|assumption].
  - auto.
Qed.
Lemma sum_entries ys : path_steps ys = concat (map s_steps ys). Proof. reflexivity. Qed.

(** * By speaker *)
Lemma flat_insert (c : call) l : forall ns, NoDup ns -> In (speaker_of c) ns ->
  Permutation (flat_map (fun n => calls_of n (c :: l)) ns) (c :: flat_map (fun n => calls_of n l) ns).
Proof.
  induction ns as [|m ns IH]; intros ND I; [destruct I|]. inversion ND as [|? ? NI ND']; subst. cbn [flat_map].
  unfold calls_of at 1. cbn [filter]. destruct (same m (speaker_of c)) eqn:E.
  - apply same_iff in E. cbn [app]. constructor. apply Permutation_app_head.
    assert (X : forall ks, ~ In (speaker_of c) ks -> flat_map (fun n => calls_of n (c :: l)) ks = flat_map (fun n => calls_of n l) ks).
    { clear. induction ks as [|k ks IH]; intros N0; [reflexivity|]. cbn [flat_map]. rewrite IH by (intros Z; apply N0; right; exact Z). f_equal.
      unfold calls_of. cbn [filter]. destruct (same k (speaker_of c)) eqn:E; [|reflexivity]. exfalso. apply N0. left. apply same_iff; exact E. }
    rewrite X; [reflexivity|]. rewrite <- E. exact NI.
  - destruct I as [->|I]; [rewrite same_refl in E; discriminate|]. rewrite (IH ND' I). fold (calls_of m l). symmetry. apply Permutation_middle.
Qed.
Lemma flat_calls l : forall ns, NoDup ns -> (forall c, In c l -> In (speaker_of c) ns) -> Permutation (flat_map (fun n => calls_of n l) ns) l.
Proof.
  induction l as [|c l IH]; intros ns ND I.
  - clear. induction ns as [|n ns IH]; [constructor|]. exact IH.
  - rewrite flat_insert; [|exact ND|apply I; left; reflexivity]. constructor. apply IH; [exact ND|]. intros d Hd. apply I; right; exact Hd.
Qed.

(** * The report *)
Lemma kept_calls cs : kept_sentences cs = map sentence_of (filter kept_of cs). Proof. reflexivity. Qed.
Lemma path_steps_kept ks : path_steps (map sentence_of ks) = all_steps ks.
Proof. unfold path_steps, all_steps. rewrite map_map. reflexivity. Qed.
Lemma wf_char1 e b : (0 < b < 128)%N -> is_char e [b].
Proof.
  intros H. exists b, []. split; [reflexivity|]. split; [|repeat constructor; lia]. destruct e; cbn [char_size length]; try reflexivity; left; (split; [lia|reflexivity]).
Qed.
Lemma wf_written e a b : well_formed e a -> well_formed e b -> well_formed e (written (a, b)).
Proof.
  intros (ca & -> & Fa) (cb & -> & Fb). exists (ca ++ [[32]; [61]; [61]; [62]; [32]]%N ++ cb). split.
  - unfold written, arrow. cbn [fst snd]. rewrite !concat_app. reflexivity.
  - apply Forall_app; split; [exact Fa|]. apply Forall_app; split; [|exact Fb]. repeat constructor; apply wf_char1; lia.
Qed.
Lemma said_wf e k l : text_words e l -> Forall (well_formed e) (said k l).
Proof.
  intros T. induction T as [|s l (Ha & Hb) T IH]; [destruct k; constructor|]. change (s :: l) with ([s] ++ l). rewrite said_app. apply Forall_app. split; [|exact IH].
  destruct s as [[[a|] [b|]] []]; cbn [fst snd] in *; destruct k; cbn [said inserted deleted substituted flat_map map app fst snd]; try (constructor; fail); (apply Forall_cons; [auto|apply Forall_nil]). apply wf_written; auto.
Qed.
Lemma said_len k l : length (said k l) <= length l.
Proof.
  induction l as [|s l IH]; [destruct k; cbn; lia|]. change (s :: l) with ([s] ++ l). rewrite said_app, !app_length.
  assert (length (said k [s]) <= 1) by (destruct s as [[[a|] [b|]] []], k; cbn; lia). cbn [length]. lia.
Qed.
Lemma rat_pos n : 0 < n -> (0 < nq n)%Q.
Proof. intros H. unfold nq, Qlt. cbn. lia. Qed.
Lemma pct_ok n d : 0 < d -> percentage n d (pct (nq n) (nq d)).
Proof.
  intros H. pose proof (rat_pos d H) as P. unfold percentage, pct. change (rat d) with (nq d). change (rat n) with (nq n). destruct (Qeq_bool (nq d) 0) eqn:E.
  - apply Qeq_bool_iff in E. rewrite E in P. exfalso. apply (Qlt_irrefl 0); exact P.
  - field. intros X. rewrite X in P. apply (Qlt_irrefl 0); exact P.
Qed.
Lemma snt_ok d n : of_sentences d n (n, pct (nq n) (nq d)).
Proof.
  split; [reflexivity|]. cbn [snd]. split; [apply pct_ok|]. intros ->. unfold pct. reflexivity.
Qed.
Lemma wrd_ok d n : of_words d n (n, if 0 <? d then Some (pct (nq n) (nq d)) else None).
Proof.
  split; [reflexivity|]. cbn [snd]. destruct (Nat.ltb_spec 0 d); [split; [assumption|apply pct_ok; assumption]|lia].
Qed.

Section Report.
Variable qsort : (nat -> nat -> Z) -> list nat -> list nat.
Hypothesis Hq : qsort_contract qsort.
Variable e : enc.

Lemma list_of_ok k gs yss : Forall2 (fun g ys => entries (g_path g) ys) gs yss -> Forall well_formed_step (path_steps (concat yss)) ->
  short_pairs (path_steps (concat yss)) -> text_words e (path_steps (concat yss)) -> (Z.of_nat (length (path_steps (concat yss))) < 2 ^ 31)%Z ->
  exists r, list_of qsort e k gs = Ok r /\ lists e (said k (path_steps (concat yss))) r.
Proof.
  intros E W F T L. unfold list_of. rewrite (locate_all_ok e k gs yss E W F).
  apply (listing_ok qsort Hq e 200 (said k (path_steps (concat yss))) 1%Z); [lia|apply said_wf; exact T| |lia].
  pose proof (said_len k (path_steps (concat yss))). lia.
Qed.
Lemma lists_perm ws ws' r : Permutation ws ws' -> lists e ws r -> lists e ws' r.
Proof.
  intros P []. constructor; try assumption.
  - rewrite <- (Permutation_length P). exact ls_sum.
  - intros w. rewrite <- ls_each. split; intros H; eapply Permutation_in; try eassumption. apply Permutation_sym; exact P.
  - intros k n s I. rewrite (ls_count k n s I). f_equal. apply (Permutation_count_occ (list_eq_dec N.eq_dec)). exact P.
Qed.
Lemma all_steps_perm cs cs' : Permutation cs cs' -> Permutation (all_steps cs) (all_steps cs').
Proof.
  intros P. unfold all_steps. induction P; cbn [map concat].
  - constructor.
  - apply Permutation_app_head; exact IHP.
  - rewrite !app_assoc. apply Permutation_app_tail. apply Permutation_app_comm.
  - etransitivity; eassumption.
Qed.
Lemma flat_perm {A B} (f : A -> list B) l l' : Permutation l l' -> Permutation (flat_map f l) (flat_map f l').
Proof. apply Permutation_flat_map. Qed.
Lemma said_perm k l l' : Permutation l l' -> Permutation (said k l) (said k l').
Proof. intros P. destruct k; cbn [said]; unfold inserted, deleted, substituted; try apply Permutation_map; apply Permutation_flat_map; exact P. Qed.
Lemma filter_len_perm {A} (f : A -> bool) l l' : Permutation l l' -> length (filter f l) = length (filter f l').
Proof. induction 1; cbn; repeat match goal with |- context [if ?b then _ else _] => destruct b end; cbn; lia. Qed.
Lemma number_perm ev l l' : Permutation l l' -> number ev l = number ev l'.
Proof. apply filter_len_perm. Qed.
Lemma reports_perm cs cs' ks ks' r : Permutation cs cs' -> Permutation ks ks' -> reports e cs ks r -> reports e cs' ks' r.
Proof.
  intros Pc Pk []. pose proof (all_steps_perm _ _ Pc) as Sc. pose proof (all_steps_perm _ _ Pk) as Sk. pose proof (Permutation_length Pc) as Lc.
  assert (Rw : ref_words (all_steps cs) = ref_words (all_steps cs')) by (apply filter_len_perm; exact Sc).
  assert (Hw : hyp_words (all_steps cs) = hyp_words (all_steps cs')) by (apply filter_len_perm; exact Sc).
  constructor; cbv zeta; rewrite <- ?Rw, <- ?Hw, <- ?Lc, <- ?(number_perm _ _ _ Sc); try assumption.
  - destruct rp_with as (w & s & d & i & C1 & C2 & C3 & C4 & F). exists w, s, d, i. repeat split; try (eapply count_perm; eassumption). exact F.
  - rewrite <- (Permutation_length Sc). exact rp_aligned.
  - apply (lists_perm _ _ _ (said_perm Pairs _ _ Sk)); exact rp_pairs.
  - apply (lists_perm _ _ _ (said_perm Insertions _ _ Sk)); exact rp_ins.
  - apply (lists_perm _ _ _ (said_perm Deletions _ _ Sk)); exact rp_del.
  - apply (lists_perm _ _ _ (said_perm Substitutions _ _ Sk)); exact rp_sub.
  - apply (lists_perm _ _ _ (said_perm Misrecognized _ _ Sk)); exact rp_false.
Qed.

Definition fits (l : list (step word)) : Prop :=
  short_pairs l /\ text_words e l /\ (Z.of_nat (length l) < 2 ^ 31)%Z.
Lemma number_total l : length l = number PCorr l + number PSub l + number PIns l + number PDel l.
Proof. induction l as [|[[a b] []] l IH]; unfold number in *; cbn; lia. Qed.

Lemma write_ok gs css cs w : Forall2 (fun g c => entries (g_path g) (kept_sentences c)) gs css -> cs = concat css ->
  well_formed_calls cs -> fits (all_steps (filter kept_of cs)) -> count_of (fun c => wrong (sentence_of c)) cs w ->
  let ys := map sentence_of (filter kept_of cs) in
  exists r, write_report qsort e gs (nb (hasb PSub) ys, nb (hasb PIns) ys, nb (hasb PDel) ys)
    {| m_c := number PCorr (all_steps cs); m_s := number PSub (all_steps cs); m_d := number PDel (all_steps cs); m_n := number PIns (all_steps cs);
       m_nsent := length cs; m_serr := w |} = Ok r /\ reports e cs (filter kept_of cs) r.
Proof.
  intros E -> W (F & T & L) Cw ys. set (cs := concat css) in *.
  assert (Yss : concat (map kept_sentences css) = ys).
  { unfold ys, cs. clear. induction css as [|c css IH]; cbn [concat map]; [reflexivity|]. rewrite IH, filter_app, map_app. reflexivity. }
  assert (E' : Forall2 (fun g ys => entries (g_path g) ys) gs (map kept_sentences css)).
  { clear - E. induction E; cbn; constructor; auto. }
  assert (Ps : path_steps (concat (map kept_sentences css)) = all_steps (filter kept_of cs)) by (rewrite Yss; apply path_steps_kept).
  assert (Wf : forall l, (forall c, In c l -> In c cs) -> Forall well_formed_step (all_steps l)).
  { intros l H. unfold all_steps. apply Forall_concat. apply Forall_map. apply Forall_forall. intros c Hc. unfold well_formed_calls in W. rewrite Forall_forall in W. apply W, H, Hc. }
  assert (W1 : Forall well_formed_step (all_steps (filter kept_of cs))) by (apply Wf; intros c Hc; apply filter_In in Hc; tauto).
  assert (W0 : Forall well_formed_step (all_steps cs)) by (apply Wf; auto).
  pose proof (fun k => list_of_ok k gs _ E') as Ls. rewrite Ps in Ls.
  destruct (Ls Pairs W1 F T L) as (l1 & E1 & L1). destruct (Ls Insertions W1 F T L) as (l2 & E2 & L2). destruct (Ls Deletions W1 F T L) as (l3 & E3 & L3).
  destruct (Ls Substitutions W1 F T L) as (l4 & E4 & L4). destruct (Ls Misrecognized W1 F T L) as (l5 & E5 & L5).
  unfold write_report. cbn [m_c m_s m_d m_n m_nsent m_serr]. cbv zeta. rewrite E1, E2, E3, E4, E5. cbn [rbind]. eexists. split; [reflexivity|].
  destruct (counts_add _ W0) as (A1 & A2 & _ & _). cbn [said] in *.
  assert (Cn : forall ev, count_of (with_step ev) (filter kept_of cs) (nb (hasb ev) ys)).
  { intros ev. unfold ys. rewrite nb_map. apply count_nb. intros c. apply hasb_spec. }
  constructor; cbn [d_sentences d_with d_words d_accuracy d_refs d_hyps d_aligned d_pairs d_ins d_del d_sub d_false]; try assumption.
  - reflexivity.
  - do 4 eexists. split; [exact Cw|]. split; [apply Cn|]. split; [apply Cn|]. split; [apply Cn|]. repeat constructor; apply snt_ok.
  - cbv zeta. rewrite A1. repeat constructor; apply wrd_ok.
  - cbv zeta. rewrite A1. set (rw := number PCorr (all_steps cs) + number PSub (all_steps cs) + number PDel (all_steps cs)).
    destruct (Nat.ltb_spec 0 rw) as [Hr|Hr]; [|lia]. split; [exact Hr|]. pose proof (pct_ok (number PSub (all_steps cs) + number PDel (all_steps cs) + number PIns (all_steps cs)) rw Hr) as X.
    unfold percentage in X. lra.
  - lia.
  - lia.
  - pose proof (number_total (all_steps cs)). lia.
Qed.
End Report.
