(** C103: the detailed reports. *)
From Coq Require Import List Arith ZArith NArith QArith Bool Permutation Lia.
From Verif Require Import Base Text_Model Text_Spec NetDp_Model Word_Model Order_Model Order_Spec Order_Thm Path_Model Path_Spec Summ_Model Scores_Model Scores_Spec
  Scores_Proofs Scores_Proofs2 Scores_Thm Alex_Model Alex_Spec Alex_Proofs1 Alex_Proofs3 Dtl_Model Dtl_Spec Dtl_Proofs.
Import ListNotations.
Local Open Scope nat_scope.

Lemma over_ok : forall gs css, Forall2 (fun g c => totals g c /\ entries (g_path g) (kept_sentences c)) gs css ->
  forall a b c m, exists w, count_of (fun c => wrong (sentence_of c)) (concat css) w /\
    over_groups gs (a, b, c) m =
      Ok ((a + nb (hasb PSub) (map sentence_of (filter kept_of (concat css))), b + nb (hasb PIns) (map sentence_of (filter kept_of (concat css))),
           c + nb (hasb PDel) (map sentence_of (filter kept_of (concat css)))),
          {| m_c := m_c m + number PCorr (all_steps (concat css)); m_s := m_s m + number PSub (all_steps (concat css));
             m_d := m_d m + number PDel (all_steps (concat css)); m_n := m_n m + number PIns (all_steps (concat css));
             m_nsent := m_nsent m + length (concat css); m_serr := m_serr m + w |}).
Proof.
  induction 1 as [|g c0 gs css (T & E) Fr IH]; intros a b c m; cbn [over_groups concat].
  - exists 0. split; [constructor|]. cbn. rewrite !Nat.add_0_r. destruct m; reflexivity.
  - rewrite (sentences_ok g _ E) by (destruct E; lia). cbn [rbind skipn]. destruct T.
    edestruct IH as (w & Cw & ->). exists (g_serr g + w). split; [apply count_app; assumption|].
    rewrite filter_app, map_app, !nb_app, all_steps_app, !number_app, app_length. cbn [m_c m_s m_d m_n m_nsent m_serr].
    rewrite t_corr, t_sub, t_ins, t_del, t_nsent. change (map sentence_of (filter kept_of c0)) with (kept_sentences c0). rewrite !Nat.add_assoc. reflexivity.
Qed.

(** what the reports need of the sentences: words in the encoding, pairs that fit into the buffer they
    are written to, counts that fit into an int *)
Definition readable (e : enc) (cs : list call) : Prop :=
  text_words e (all_steps cs) /\ short_pairs (all_steps cs) /\ (Z.of_nat (length (all_steps cs)) < 2 ^ 31)%Z.
Lemma Forall_sub {A} (P : A -> Prop) (f : call -> list A) (l l' : list call) : (forall c, In c l' -> In c l) ->
  Forall P (flat_map f l) -> Forall P (flat_map f l').
Proof.
  intros H F. rewrite Forall_forall in *. intros x Hx. apply in_flat_map in Hx as (c & Hc & Hx). apply F. apply in_flat_map. exists c. auto.
Qed.
Lemma all_flat cs : all_steps cs = flat_map (fun c => s_steps (sentence_of c)) cs.
Proof. unfold all_steps. rewrite <- flat_map_concat_map. reflexivity. Qed.
Lemma flat_flat {A B C} (f : B -> list C) (g : A -> list B) l : flat_map f (flat_map g l) = flat_map (fun x => flat_map f (g x)) l.
Proof. induction l as [|x l IH]; cbn; [reflexivity|]. rewrite flat_map_app, IH. reflexivity. Qed.
Lemma len_sub (f : call -> bool) cs : length (all_steps (filter f cs)) <= length (all_steps cs).
Proof.
  rewrite !all_flat. induction cs as [|c cs IH]; [cbn; lia|]. cbn [filter flat_map]. rewrite app_length.
  destruct (f c); cbn [flat_map]; rewrite ?app_length; [apply Nat.add_le_mono_l; exact IH|]. eapply Nat.le_trans; [exact IH|apply Nat.le_add_l].
Qed.
Lemma readable_filter e (f : call -> bool) cs : readable e cs -> readable e (filter f cs).
Proof.
  intros (T & S & L). split; [|split].
  - unfold text_words in *. rewrite all_flat in *. eapply Forall_sub; [|exact T]. intros c Hc. apply filter_In in Hc; tauto.
  - unfold short_pairs, substituted in *. rewrite all_flat in *. rewrite flat_flat in *. eapply Forall_sub; [|exact S]. intros c Hc. apply filter_In in Hc; tauto.
  - pose proof (len_sub f cs). lia.
Qed.
Lemma readable_perm e cs cs' : Permutation cs cs' -> readable e cs -> readable e cs'.
Proof.
  intros P (T & S & L). pose proof (all_steps_perm _ _ P) as Ps. split; [|split].
  - unfold text_words in *. eapply Permutation_Forall; eassumption.
  - unfold short_pairs in *. eapply Permutation_Forall; [|exact S]. unfold substituted. apply Permutation_flat_map. exact Ps.
  - rewrite <- (Permutation_length Ps). exact L.
Qed.
Lemma readable_fits e cs : readable e cs -> fits e (all_steps (filter kept_of cs)).
Proof. intros H. destruct (readable_filter e kept_of cs H) as (T & S & L). split; [exact S|]. split; assumption. Qed.
Lemma wf_perm cs cs' : Permutation cs cs' -> well_formed_calls cs -> well_formed_calls cs'.
Proof. intros P W. unfold well_formed_calls in *. eapply Permutation_Forall; eassumption. Qed.
Lemma filter_perm {A} (f : A -> bool) l l' : Permutation l l' -> Permutation (filter f l) (filter f l').
Proof. induction 1; cbn; repeat match goal with |- context [if ?b then _ else _] => destruct b end; auto; [constructor|etransitivity; eassumption]. Qed.

(** After any history of scored sentences, the overall report gives the numbers of all of them, with
    their percentages, and lists the confusion pairs, inserted, deleted, substituted and falsely
    recognised words of the kept ones, each once with its count. *)
Theorem C103_overall : forall qsort, qsort_contract qsort -> forall e ngrp cs, well_formed_calls cs -> readable e cs ->
  exists sc gs r, score_calls (scores_init ngrp) cs = Ok sc /\ entries sc gs
    /\ dtl_overall qsort e gs = Ok r /\ reports e cs (filter kept_of cs) r.
Proof.
  intros q Hq e ngrp cs W R. destruct (C37_groups ngrp cs W) as (sc & gs & E & En & Nm & ND & H).
  pose (css := map (fun g => calls_of (g_name g) cs) gs).
  assert (F2 : Forall2 (fun g c => totals g c /\ entries (g_path g) (kept_sentences c)) gs css).
  { unfold css. clear - H. induction gs as [|g gs IH]; cbn [map]; constructor; [apply H; left; reflexivity|]. apply IH. intros x Hx. apply H; right; exact Hx. }
  assert (P : Permutation (concat css) cs).
  { replace (concat css) with (flat_map (fun n => calls_of n cs) (map g_name gs)) by (unfold css; rewrite flat_map_concat_map, map_map; reflexivity).
    apply flat_calls; [exact ND|]. rewrite Nm. intros c Hc. apply in_speakers. exists c. auto. }
  destruct (over_ok gs css F2 0 0 0 sums0) as (w & Cw & Eo). cbn [sums0 m_c m_s m_d m_n m_nsent m_serr Nat.add] in Eo.
  destruct (write_ok q Hq e gs css (concat css) w) as (r & Er & Rr).
  - clear - F2. induction F2 as [|? ? ? ? []]; constructor; auto.
  - reflexivity.
  - eapply wf_perm; [apply Permutation_sym; exact P|exact W].
  - apply readable_fits. eapply readable_perm; [apply Permutation_sym; exact P|exact R].
  - exact Cw.
  - exists sc, gs, r. split; [exact E|]. split; [exact En|]. unfold dtl_overall. rewrite Eo. cbn [rbind]. split; [exact Er|].
    eapply reports_perm; [exact P|apply filter_perm; exact P|exact Rr].
Qed.
Print Assumptions C103_overall.

(** The report of a speaker says the same of the sentences of that speaker. *)
Theorem C103_speaker : forall qsort, qsort_contract qsort -> forall e ngrp cs, well_formed_calls cs -> readable e cs ->
  exists sc gs, score_calls (scores_init ngrp) cs = Ok sc /\ entries sc gs /\ map g_name gs = speakers cs
    /\ forall g, In g gs -> exists r, dtl_spkr qsort e g = Ok r
         /\ reports e (calls_of (g_name g) cs) (filter kept_of (calls_of (g_name g) cs)) r.
Proof.
  intros q Hq e ngrp cs W R. destruct (C37_groups ngrp cs W) as (sc & gs & E & En & Nm & ND & H). exists sc, gs. split; [exact E|]. split; [exact En|]. split; [exact Nm|].
  intros g I. destruct (H g I) as [T Eg]. unfold dtl_spkr. rewrite (sentences_ok g _ Eg) by (destruct Eg; lia). cbn [rbind skipn Nat.add].
  set (c := calls_of (g_name g) cs) in *. destruct T.
  destruct (write_ok q Hq e [g] [c] c (g_serr g)) as (r & Er & Rr).
  - constructor; [exact Eg|constructor].
  - cbn. rewrite app_nil_r. reflexivity.
  - unfold well_formed_calls in *. unfold c, calls_of. rewrite Forall_forall in *. intros x Hx. apply filter_In in Hx. apply W; tauto.
  - apply readable_fits. apply readable_filter. exact R.
  - exact t_serr.
  - exists r. split; [|exact Rr]. rewrite t_corr, t_sub, t_del, t_ins, t_nsent. exact Er.
Qed.
Print Assumptions C103_speaker.

(** When all sentences are kept, the sums under the lists are the counters above them. *)
Theorem C103_sums : forall e cs r, well_formed_calls cs -> Forall (fun c => kept_of c = true) cs ->
  reports e cs (filter kept_of cs) r ->
  let st := all_steps cs in
  li_sum (d_pairs r) = Z.of_nat (number PSub st) /\ li_sum (d_sub r) = Z.of_nat (number PSub st) /\ li_sum (d_false r) = Z.of_nat (number PSub st)
  /\ li_sum (d_ins r) = Z.of_nat (number PIns st) /\ li_sum (d_del r) = Z.of_nat (number PDel st).
Proof.
  intros e cs r W K R st.
  assert (Ef : filter kept_of cs = cs).
  { clear - K. induction K as [|c cs H K IH]; cbn; [reflexivity|]. rewrite H, IH. reflexivity. }
  rewrite Ef in R. destruct R. fold st in rp_pairs, rp_ins, rp_del, rp_sub, rp_false.
  assert (Ws : Forall well_formed_step st).
  { unfold st, all_steps. apply Forall_concat. apply Forall_map. exact W. }
  assert (L : length (substituted st) = number PSub st /\ length (inserted st) = number PIns st /\ length (deleted st) = number PDel st).
  { clear - Ws. unfold substituted, inserted, deleted, number. induction Ws as [|s l H Ws (I1 & I2 & I3)]; [repeat split|].
    cbn [flat_map filter]. rewrite !app_length, I1, I2, I3.
    destruct s as [[[a|] [b|]] []]; cbn in H |- *; try (exfalso; destruct H; congruence); repeat split. }
  destruct L as (L1 & L2 & L3).
  rewrite (ls_sum _ _ _ rp_pairs), (ls_sum _ _ _ rp_sub), (ls_sum _ _ _ rp_false), (ls_sum _ _ _ rp_ins), (ls_sum _ _ _ rp_del), !map_length, L1, L2, L3. auto.
Qed.
Print Assumptions C103_sums.

(** Words without spaces: the line of a pair counts exactly the substitutions of the one word by the
    other. *)
Lemma written_inj a b c d : ~ In 32%N a -> ~ In 32%N c -> written (a, b) = written (c, d) -> a = c /\ b = d.
Proof.
  unfold written, arrow. cbn [fst snd]. revert c. induction a as [|x a IH]; intros [|y c] Na Nc E; cbn [app] in E.
  - injection E as ->. auto.
  - injection E as <- _. exfalso. apply Nc. left; reflexivity.
  - injection E as -> _. exfalso. apply Na. left; reflexivity.
  - injection E as -> E. destruct (IH c) as [-> ->]; [intros H; apply Na; right; exact H|intros H; apply Nc; right; exact H|exact E|]. auto.
Qed.
Definition pair_dec (p q : list N * list N) : {p = q} + {p <> q}.
Proof. decide equality; apply (list_eq_dec N.eq_dec). Defined.
Theorem C103_pairs : forall e cs ks r, reports e cs ks r ->
  Forall (fun p => ~ In 32%N (fst p)) (substituted (all_steps ks)) ->
  forall a b k n, ~ In 32%N a -> In (k, n, a ++ arrow ++ b) (li_lines (d_pairs r)) ->
    n = Z.of_nat (count_occ pair_dec (substituted (all_steps ks)) (a, b)).
Proof.
  intros e cs ks r R F a b k n Na I. rewrite (ls_count _ _ _ (rp_pairs _ _ _ _ R) k n _ I). f_equal. unfold times. clear - F Na.
  induction F as [|[c d] l H F IH]; [reflexivity|]. cbn [map count_occ]. cbn [fst] in H.
  destruct (list_eq_dec N.eq_dec (written (c, d)) (a ++ arrow ++ b)) as [E|Ne], (pair_dec (c, d) (a, b)) as [E'|Ne'].
  - f_equal; exact IH.
  - exfalso. apply Ne'. destruct (written_inj c d a b H Na E) as [-> ->]. reflexivity.
  - exfalso. apply Ne. injection E' as -> ->. reflexivity.
  - exact IH.
Qed.
Print Assumptions C103_pairs.

(** Sentence by sentence: each kept sentence of the speaker has its line, with the numbers of the
    sentence and the totals of the sentences up to it. *)
Lemma sentences_lines g ys : entries (g_path g) ys -> Forall (fun y => Forall well_formed_step (s_steps y)) ys ->
  forall n p done sp nw, p + n = length ys -> done = path_steps (firstn p ys) -> Forall well_formed_step done ->
    sp = {| y_c := number PCorr done; y_s := number PSub done; y_n := number PIns done; y_d := number PDel done |} -> nw = length done ->
    exists ls, dtl_sentences g n p sp nw = Ok ls /\ length ls = n
      /\ forall i y z, nth_error ys (p + i) = Some y -> nth_error ls i = Some z -> line_of (s_steps y) (path_steps (firstn (p + i + 1) ys)) z.
Proof.
  intros E W. induction n as [|n IH]; intros p done sp nw H Hd Wd Hs Hn; cbn [dtl_sentences].
  - exists []. split; [reflexivity|]. split; [reflexivity|]. intros [|i] y z _ Hz; discriminate.
  - destruct (nth_error ys p) as [y|] eqn:Ey; [|apply nth_error_None in Ey; lia]. rewrite (kept_ok _ _ _ _ E Ey). cbn [rbind]. cbv zeta. rewrite tally_ok.
    cbn [y_c y_s y_n y_d tally0 Nat.add].
    assert (Wy : Forall well_formed_step (s_steps y)) by (rewrite Forall_forall in W; apply W; eapply nth_error_In; exact Ey).
    assert (Ef : path_steps (firstn (p + 1) ys) = done ++ s_steps y).
    { rewrite Hd. clear - Ey. revert p Ey. induction ys as [|x ys IH]; intros [|p] Ey; cbn in *; try discriminate.
      - injection Ey as ->. apply app_nil_r.
      - unfold path_steps in *. cbn. rewrite IH by exact Ey. rewrite app_assoc. reflexivity. }
    edestruct (IH (p + 1) (done ++ s_steps y)) as (ls & -> & Ll & Hl); [lia|symmetry; exact Ef|apply Forall_app; split; assumption| | |].
    { rewrite Hs, !number_app. reflexivity. }
    { rewrite Hn, app_length. reflexivity. }
    cbn [rbind]. eexists. split; [reflexivity|]. split; [cbn; lia|]. intros [|i] y' z Hy Hz.
    + rewrite Nat.add_0_r in *. rewrite Ey in Hy. injection Hy as <-. injection Hz as <-. rewrite Ef.
      destruct (counts_add _ Wy) as (A1 & A2 & _ & _). destruct (counts_add (done ++ s_steps y)) as (B1 & B2 & _ & _); [apply Forall_app; split; assumption|].
      rewrite !number_app in B1, B2. subst sp nw.
      constructor; cbn [z_c z_s z_d z_n z_err z_pct z_ref z_hyp z_aligned y_c y_s y_n y_d]; unfold both, errors; rewrite ?number_app, ?app_length, ?A1, ?A2, ?B1, ?B2; try reflexivity.
      cbn [map].
      repeat constructor; (match goal with |- context [0 <? ?k] => destruct (Nat.ltb_spec 0 k) end; [split; [assumption|apply pct_ok; assumption]|lia]).
    + cbn [nth_error] in Hz. replace (p + S i) with (p + 1 + i) in * by lia. apply (Hl i y' z Hy Hz).
Qed.
Theorem C103_sentences : forall ngrp cs, well_formed_calls cs ->
  exists sc gs, score_calls (scores_init ngrp) cs = Ok sc /\ entries sc gs /\ map g_name gs = speakers cs
    /\ forall g, In g gs -> let ys := kept_sentences (calls_of (g_name g) cs) in
         exists ls, dtl_sent g = Ok ls /\ length ls = length ys
         /\ forall i y z, nth_error ys i = Some y -> nth_error ls i = Some z ->
              line_of (s_steps y) (concat (map s_steps (firstn (i + 1) ys))) z.
Proof.
  intros ngrp cs W. destruct (C37_groups ngrp cs W) as (sc & gs & E & En & Nm & ND & H). exists sc, gs. split; [exact E|]. split; [exact En|]. split; [exact Nm|].
  intros g I ys. destruct (H g I) as [T Eg]. fold ys in Eg. unfold dtl_sent.
  destruct (sentences_lines g ys Eg) with (n := p_num (g_path g)) (p := 0) (done := @nil (step word)) (sp := tally0) (nw := 0) as (ls & El & Ll & Hl); try reflexivity.
  - unfold ys, kept_sentences. apply Forall_map. apply Forall_forall. intros c Hc. apply filter_In in Hc as [Hc _]. unfold calls_of in Hc. apply filter_In in Hc as [Hc _].
    unfold well_formed_calls in W. rewrite Forall_forall in W. apply W; exact Hc.
  - destruct Eg as [Ep _]. lia.
  - constructor.
  - exists ls. split; [exact El|]. split; [rewrite Ll; destruct Eg as [Ep _]; exact Ep|]. exact Hl.
Qed.
Print Assumptions C103_sentences.

(** A word pair of 10000 bytes or more runs over the buffer it is written to. *)
Theorem C103_long_pair_refuted : forall a b, (10000 <= Z.of_nat (length (written (a, b))))%Z -> pair_text a b = Undef.
Proof.
  intros a b H. unfold pair_text. cbv zeta. unfold written, arrow in H. cbn [fst snd] in H. unfold buffer_size.
  destruct (Z.ltb_spec (Z.of_nat (length (a ++ [32; 61; 61; 62; 32]%N ++ b))) 10000); [lia|reflexivity].
Qed.
Print Assumptions C103_long_pair_refuted.

(** A word with a space and an arrow in it can make two different pairs one line. *)
Theorem C103_spaces_refuted : exists a b c d, (a, b) <> (c, d) /\ pair_text a b = pair_text c d /\ pair_text a b <> Undef.
Proof.
  exists [120%N], ([121%N] ++ arrow ++ [122%N]), ([120%N] ++ arrow ++ [121%N]), [122%N]. split; [discriminate|]. split; [reflexivity|vm_compute; discriminate].
Qed.
Print Assumptions C103_spaces_refuted.

Definition text_word (v : list N) : word :=
  {| w_value := v; w_intern := None; w_opt_del := false; w_frag := false; w_t1 := 0%Z; w_t2 := 0%Z; w_dur := 0%Z; w_weight := 1%Z |}.
Definition dtl_calls : list call :=
  let w := fun n => text_word [n] in
  [([49%N], {| s_id := [1%N]; s_steps := [(Some (w 97%N), Some (w 97%N), PCorr); (Some (w 98%N), Some (w 99%N), PSub); (None, Some (w 100%N), PIns)] |}, true);
   ([50%N], {| s_id := [2%N]; s_steps := [(Some (w 98%N), Some (w 99%N), PSub); (Some (w 101%N), None, PDel)] |}, true);
   ([49%N], {| s_id := [3%N]; s_steps := [(Some (w 97%N), Some (w 97%N), PCorr)] |}, true)].
Lemma ascii_words l : forallb (fun b => (0 <? b)%N && (b <? 256)%N) l = true -> well_formed ASCII l.
Proof.
  intros H. exists (map (fun b => [b]) l). split.
  - clear H. induction l as [|b s IH]; cbn; [reflexivity|]. f_equal. exact IH.
  - apply Forall_forall. intros c Hc. apply in_map_iff in Hc as (b & <- & Hb). exists b, []. split; [reflexivity|]. split; [reflexivity|].
    rewrite forallb_forall in H. specialize (H b Hb). apply andb_prop in H as [H1 H2]. apply N.ltb_lt in H1, H2. repeat constructor; assumption.
Qed.

(** ** Concrete cases *)
Example C103_example : well_formed_calls dtl_calls /\ readable ASCII dtl_calls
  /\ exists sc g1 g2 r, score_calls (scores_init 0) dtl_calls = Ok sc /\ entries sc [g1; g2] /\ dtl_overall isort ASCII [g1; g2] = Ok r
     /\ d_refs r = 5 /\ d_hyps r = 5 /\ d_aligned r = 6 /\ map fst (d_with r) = [2; 2; 1; 1] /\ map fst (d_words r) = [4; 2; 2; 1; 1]
     /\ li_lines (d_pairs r) = [(1, 2%Z, [98; 32; 61; 61; 62; 32; 99]%N)]
     /\ li_lines (d_del r) = [(1, 1%Z, [101]%N)] /\ li_lines (d_ins r) = [(1, 1%Z, [100]%N)]
     /\ exists z, dtl_sent g2 = Ok [z] /\ z_err z = (2, 2).
Proof.
  split; [unfold well_formed_calls, dtl_calls; repeat (apply Forall_cons; [repeat constructor; cbn; discriminate|]); constructor|].
  split; [split; [|split]|].
  - unfold text_words. cbn. repeat (apply Forall_cons; [split; intros a E; cbn in E; try discriminate; injection E as <-; apply ascii_words; reflexivity|]). constructor.
  - unfold short_pairs. cbn. repeat (apply Forall_cons; [reflexivity|]). constructor.
  - reflexivity.
  - do 4 eexists. split; [vm_compute; reflexivity|]. split; [split; [reflexivity|]|].
    + reflexivity.
    + split; [vm_compute; reflexivity|]. repeat split. eexists. split; [vm_compute; reflexivity|]. reflexivity.
Qed.
