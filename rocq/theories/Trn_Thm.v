(** C70, C71: the scoring of transcripts by utterance ids. *)
From Coq Require Import List NArith ZArith Arith Bool Lia Permutation Sorted.
From Verif Require Import Base Chan_Model Read_Model Read_Spec Read_Proofs Read_Proofs3 Trn_Model Trn_Spec Trn_Proofs Trn_Proofs2 Trn_Proofs3.
Import ListNotations.
Local Open Scope res_scope.

Lemma transcripts_cased cs bytes us : Transcripts cs bytes us -> Forall (fun u => fold_case cs (fst u) = fst u) us.
Proof.
  intros (ls & _ & F). induction F as [|l (t, i) ls us H F IH]; constructor; [|exact IH]. cbn [fst snd] in *.
  pose proof (remove_id_ok _ _ _ H) as E. pose proof (remove_id_cased cs (cased cs l)) as E2. rewrite cased_twice, E in E2. cbn [rbind] in E2.
  assert (Et : cased cs t = t) by congruence. rewrite fold_cased. exact Et.
Qed.

(** The run ends with every utterance of the hypothesis scored, in order, against the first
    reference with its id, when the references fit; else it is refused. *)
Theorem C70_pairing cs idt ref hyp R H spks :
  Transcripts cs ref R -> Transcripts cs hyp H -> Speakers idt [] (map snd H) spks -> Forall short spks ->
  (Fits R H -> exists us, align_trans_mode cs idt ref hyp = Ok us /\ Paired R H us /\ map u_spk us = spks) /\
  (~ Fits R H -> align_trans_mode cs idt ref hyp = Exit).
Proof.
  intros TR TH SP SH. destruct (transcripts_lines _ _ _ TR) as (rl & UR & FR & _). destruct (transcripts_lines _ _ _ TH) as (hl & UH & FH & _).
  rewrite fits_iff. unfold align_trans_mode. destruct (load_ok cs ref hyp rl hl R H UR UH FR FH) as [(Ft & set & num & -> & I)|[NF ->]]; cbn [rbind].
  - split; [intros _|contradiction]. rewrite (lines_of_ok _ _ UH). cbn [rbind].
    apply (run_ok (qsort (map snd H)) cs idt R set num (qsort_sorted _) I (transcripts_cased _ _ _ TR) hl H [] spks FH); auto.
    intros id J. split; [apply (Permutation_in id (Permutation_sym (qsort_perm _))), J|]. apply (proj1 (proj2 Ft)), J.
  - split; [intro; contradiction|auto].
Qed.
(** What a run that ends has paired. *)
Theorem C70_sound cs idt ref hyp R H us :
  Transcripts cs ref R -> Transcripts cs hyp H -> align_trans_mode cs idt ref hyp = Ok us -> Fits R H /\ Paired R H us.
Proof.
  intros TR TH E. destruct (transcripts_lines _ _ _ TR) as (rl & UR & FR & _). destruct (transcripts_lines _ _ _ TH) as (hl & UH & FH & SHH).
  unfold align_trans_mode in E. destruct (load_ok cs ref hyp rl hl R H UR UH FR FH) as [(Ft & set & num & EL & I)|[NF EL]]; rewrite EL in E; cbn [rbind] in E; [|discriminate].
  rewrite fits_iff. split; [exact Ft|]. rewrite (lines_of_ok _ _ UH) in E. cbn [rbind] in E.
  destruct (run_speakers (qsort (map snd H)) cs idt set hl H [] us FH SHH E) as (A & B & C). rewrite B in A.
  destruct (run_ok (qsort (map snd H)) cs idt R set num (qsort_sorted _) I (transcripts_cased _ _ _ TR) hl H [] (map u_spk us) FH) as (us' & E' & P & _).
  - intros id J. split; [apply (Permutation_in id (Permutation_sym (qsort_perm _))), J|]. apply (proj1 (proj2 Ft)), J.
  - exact A.
  - apply C. unfold short, LOAD_BUFF_LEN. apply Nat.ltb_lt. reflexivity.
  - assert (us' = us) by congruence. subst us'. exact P.
Qed.

Lemma first_nodup R id t : NoDup (map snd R) -> First R id t <-> In (t, id) R.
Proof.
  intros ND. split; [apply first_in|]. intros I. apply in_split in I. destruct I as (a & b & ->). exists a, b. split; [reflexivity|].
  rewrite map_app in ND. cbn [map snd] in ND. apply NoDup_remove_2 in ND. intro J. apply ND, in_app_iff. left. exact J.
Qed.
(** The order of the references does not matter. *)
Theorem C70_any_order cs idt ref ref' hyp R R' H us :
  Transcripts cs ref R -> Transcripts cs ref' R' -> Transcripts cs hyp H -> Permutation R R' -> NoDup (map snd R) ->
  align_trans_mode cs idt ref hyp = Ok us -> align_trans_mode cs idt ref' hyp = Ok us.
Proof.
  intros TR TR' TH PM ND E. destruct (C70_sound _ _ _ _ _ _ _ TR TH E) as [(A & B) P].
  assert (ND' : NoDup (map snd R')) by (apply (Permutation_NoDup (Permutation_map snd PM)), ND).
  assert (FF : forall id t, First R id t <-> First R' id t).
  { intros id t. rewrite !first_nodup by assumption. split; apply Permutation_in; [exact PM|symmetry; exact PM]. }
  assert (F' : Fits R' H).
  { split; [exact A|]. intros id J. destruct (B id J) as (t & Ft & Q). exists t. split; [apply FF, Ft|].
    intros t' I. apply Q. apply (Permutation_in _ (Permutation_sym PM)), I. }
  assert (SPK : Speakers idt [] (map snd H) (map u_spk us) /\ Forall short (map u_spk us)).
  { destruct (transcripts_lines _ _ _ TR) as (rl & UR & FR & _). destruct (transcripts_lines _ _ _ TH) as (hl & UH & FH & SHH).
    unfold align_trans_mode in E. destruct (load_ok cs ref hyp rl hl R H UR UH FR FH) as [(Ft & set & num & EL & I)|[NF EL]]; rewrite EL in E; cbn [rbind] in E; [|discriminate].
    rewrite (lines_of_ok _ _ UH) in E. cbn [rbind] in E.
    destruct (run_speakers (qsort (map snd H)) cs idt set hl H [] us FH SHH E) as (X & Y & Z). rewrite Y in X. split; [exact X|]. apply Z.
    unfold short, LOAD_BUFF_LEN. apply Nat.ltb_lt. reflexivity. }
  destruct SPK as [SP SH]. destruct (C70_pairing cs idt ref' hyp R' H _ TR' TH SP SH) as [G _]. destruct (G F') as (us' & -> & P' & M'). f_equal.
  clear - P P' M' FF. unfold Paired in *. revert us' P' M'. induction P as [|h u H us (A & B & C) P IH]; intros us' P' M'; inversion P' as [|? u' ? us2 (A' & B' & C') P2]; subst; [reflexivity|].
  cbn [map] in M'. injection M' as M1 M2. f_equal; [|apply IH; assumption]. destruct u as [s1 i1 r1 h1], u' as [s2 i2 r2 h2]. cbn [u_spk u_id u_ref u_hyp] in *.
  apply FF in C. assert (r1 = r2) by (eapply first_fun; eauto). congruence.
Qed.

(** The shape of a line: an utterance, or one whose last parentheses are ")(". *)
Definition line_shape (l : str) : Prop :=
  (exists t i, Utterance l t i) \/ exists a b, l = a ++ 41%N :: 40%N :: b /\ ~ In 40%N b /\ ~ In 41%N b.
Lemma split_at {A} (a b a' b' : list A) : a ++ b = a' ++ b' -> (length a <= length a')%nat -> exists m, a' = a ++ m /\ b = m ++ b'.
Proof.
  revert a'. induction a as [|x a IH]; intros a' E L; [exists a'; auto|]. destruct a' as [|y a']; cbn [length] in L; [lia|].
  cbn [app] in E. injection E as <- E. destruct (IH a' E) as (m & -> & ->); [lia|]. exists m. auto.
Qed.
Lemma remove_shape l u : remove_id l = Ok u -> line_shape l.
Proof.
  unfold remove_id. pose proof (rchr_is 41 l) as H1. pose proof (rchr_is 40 l) as H2.
  destruct (rchr 41 l) as [r|], (rchr 40 l) as [p|]; try discriminate.
  - destruct H1 as (a & b & -> & <- & N1), H2 as (a' & b' & E & <- & N2).
    destruct (Nat.ltb_spec (length a + 1) (length a')) as [X|X]; [discriminate|]. intros _.
    destruct (Nat.le_gt_cases (length a') (length a)) as [L|L].
    + left. destruct (split_at a' (40%N :: b') a (41%N :: b)) as (m & -> & E2); [congruence|exact L|].
      destruct m as [|c m]; [discriminate|]. cbn [app] in E2. injection E2 as <- E2. exists a', (40%N :: m ++ [41%N]).
      rewrite <- app_assoc. cbn [app]. constructor; [| |exact N1].
      * intro I. apply N2. rewrite E2. apply in_app_iff. auto.
      * intro I. apply N2. rewrite E2. apply in_app_iff. right. right. exact I.
    + right. destruct (split_at a (41%N :: b) a' (40%N :: b')) as (m & -> & E2); [congruence|lia|].
      rewrite app_length in X, L. destruct m as [|c [|d m]]; cbn [length] in X, L; try lia. cbn [app] in E2. injection E2 as <- ->.
      exists a, b'. split; [reflexivity|]. split; [exact N2|]. intro I. apply N1. right. exact I.
  - intros _. left. exists l, []. constructor; assumption.
Qed.
Lemma mapM_inv {A B} (g : A -> res B) l r : mapM g l = Ok r -> Forall2 (fun x y => g x = Ok y) l r.
Proof.
  revert r. induction l as [|x l IH]; intros r E; cbn [mapM] in E; [injection E as <-; constructor|].
  destruct (g x) as [y| | |] eqn:G; cbn [rbind] in E; try discriminate. destruct (mapM g l) as [ys| | |] eqn:M; cbn [rbind] in E; try discriminate.
  injection E as <-. constructor; auto.
Qed.
Lemma store_inv cs ids lines : forall set num bad x, store_refs cs ids lines set num bad = Ok x ->
  Forall (fun l => exists u, remove_id (fold_case cs l) = Ok u) lines.
Proof.
  induction lines as [|l lines IH]; intros set num bad x E; [constructor|]. cbn [store_refs] in E.
  destruct (remove_id (fold_case cs l)) as [(t, i)| | |] eqn:R; cbn [rbind] in E; try discriminate. constructor; [eauto|].
  destruct (bsearch i ids) as [[j|]| | |]; cbn [rbind] in E; try discriminate; [|eapply IH; exact E].
  destruct (nth_error set j) as [[t0|]|]; try discriminate; eapply IH; exact E.
Qed.
(** In a run that ends, every utterance line of both files had such a shape. *)
Theorem C70_lines cs idt ref hyp rl hl us : Utts ref rl -> Utts hyp hl -> align_trans_mode cs idt ref hyp = Ok us ->
  Forall line_shape (map (cased cs) (rl ++ hl)) /\ length us = length hl.
Proof.
  intros UR UH E. unfold align_trans_mode, load_refs in E. rewrite (lines_of_ok _ _ UH), (lines_of_ok _ _ UR) in E. cbn [rbind] in E.
  destruct (mapM (fun l => remove_id (fold_case cs l)) hl) as [hs| | |] eqn:M; cbn [rbind] in E; try discriminate. apply mapM_inv in M.
  destruct (store_refs cs (qsort (map snd hs)) rl (map (fun _ => None) (qsort (map snd hs))) 0 false) as [((set, num), bad)| | |] eqn:ST; cbn [rbind] in E; try discriminate.
  destruct (bad || negb (Nat.eqb num (length (qsort (map snd hs))))); cbn [rbind] in E; [discriminate|]. apply store_inv in ST. split.
  - rewrite map_app. apply Forall_app. split.
    + apply Forall_map. eapply Forall_impl; [|exact ST]. intros l (u & H). eapply remove_shape, H.
    + apply Forall_map. clear - M. induction M as [|l u hl hs H M IH]; constructor; [eapply remove_shape, H|exact IH].
  - clear - E. revert us E. generalize (@nil N) as prev. generalize (qsort (map snd hs)) as ids. intros ids. induction hl as [|l hl IH]; intros prev us E; cbn [align_utts] in E; [injection E as <-; reflexivity|].
    destruct (remove_id l) as [(t, i)| | |]; cbn [rbind] in E; try discriminate.
    destruct (extract_speaker idt (fold_case cs i) prev) as [s| | |]; cbn [rbind] in E; try discriminate.
    destruct (bsearch (fold_case cs i) ids) as [[j|]| | |]; cbn [rbind] in E; try discriminate.
    destruct (nth_error set j) as [[t1|]|]; try discriminate.
    destruct (align_utts cs idt ids set hl s) as [us'| | |] eqn:EU; cbn [rbind] in E; try discriminate. injection E as <-. cbn [length]. f_equal. eapply IH, EU.
Qed.
(** Every file has its utterance lines. *)
Theorem C70_total bytes : exists ls, Utts bytes ls /\ lines_of bytes = Ok ls.
Proof. destruct (utts_total (S (length bytes)) bytes) as (ls & U); [lia|]. exists ls. split; [exact U|apply lines_of_ok, U]. Qed.

(** The speakers of a run that ends. *)
Theorem C71_speakers cs idt ref hyp R H us :
  Transcripts cs ref R -> Transcripts cs hyp H -> align_trans_mode cs idt ref hyp = Ok us -> Speakers idt [] (map u_id us) (map u_spk us).
Proof.
  intros TR TH E. destruct (transcripts_lines _ _ _ TR) as (rl & UR & FR & _). destruct (transcripts_lines _ _ _ TH) as (hl & UH & FH & SHH).
  unfold align_trans_mode in E. destruct (load_ok cs ref hyp rl hl R H UR UH FR FH) as [(Ft & set & num & EL & I)|[NF EL]]; rewrite EL in E; cbn [rbind] in E; [|discriminate].
  rewrite (lines_of_ok _ _ UH) in E. cbn [rbind] in E. exact (proj1 (run_speakers (qsort (map snd H)) cs idt set hl H [] us FH SHH E)).
Qed.
(** With short ids, none empty where the id type takes letters from it, the speakers are defined. *)
Theorem C71_total cs idt hyp H : Transcripts cs hyp H -> Forall (fun u => short (snd u)) H ->
  (idt = WSJ \/ idt = ATIS -> Forall (fun u => snd u <> []) H) ->
  exists spks, Speakers idt [] (map snd H) spks /\ Forall short spks.
Proof.
  intros TH SH NE. destruct (transcripts_lines _ _ _ TH) as (hl & _ & _ & SHH).
  assert (P0 : short []) by (unfold short, LOAD_BUFF_LEN; apply Nat.ltb_lt; reflexivity).
  enough (G : forall prev, short prev -> exists spks, Speakers idt prev (map snd H) spks /\ Forall short spks) by exact (G [] P0).
  clear TH hl P0. induction H as [|(t, i) H IH]; intros prev P0; [exists []; split; constructor|].
  inversion SHH; inversion SH; subst. cbn [snd map] in *.
  destruct (speaker_total idt i prev) as (s & A & L); [assumption| |].
  - intros ->. split; intros ->; [specialize (NE (or_introl eq_refl))|specialize (NE (or_intror eq_refl))]; inversion NE; subst; cbn [snd] in *; congruence.
  - assert (short s) by (unfold short in *; lia). destruct (IH ltac:(assumption) ltac:(intros X; specialize (NE X); inversion NE; assumption) ltac:(assumption) s ltac:(assumption)) as (ss & B & C).
    exists (s :: ss). split; constructor; assumption.
Qed.

(** A last line without newline is not scored, whatever it says. *)
Theorem C70_last_line_refuted : exists cs idt ref hyp, Line hyp [] /\ Utterance hyp [97; 32]%N [40; 120; 41]%N /\ align_trans_mode cs idt ref hyp = Ok [].
Proof.
  exists true, SP, [97; 32; 40; 120; 41; 10]%N, [97; 32; 40; 120; 41]%N. split; [|split].
  - split; [discriminate|]. exists [97; 32; 40; 120; 41]%N. split; [repeat constructor; discriminate|auto].
  - apply (u_paren [97; 32]%N [120]%N []); cbn; intuition discriminate.
  - vm_compute. reflexivity.
Qed.
(** Two different references with the same id are accepted. *)
Theorem C70_two_texts_refuted : exists cs idt ref hyp R us id t t', Transcripts cs ref R /\ In (t, id) R /\ In (t', id) R /\ t <> t' /\
  align_trans_mode cs idt ref hyp = Ok us /\ In id (map u_id us).
Proof.
  exists true, SP, [97; 98; 40; 120; 41; 10; 97; 40; 120; 41; 10]%N, [97; 40; 120; 41; 10]%N,
    [([97; 98], [40; 120; 41]); ([97], [40; 120; 41])]%N, [{| u_spk := [40; 120; 41]; u_id := [40; 120; 41]; u_ref := [97; 98]; u_hyp := [97] |}]%N,
    [40; 120; 41]%N, [97; 98]%N, [97]%N.
  split; [|split; [left; reflexivity|]; split; [right; left; reflexivity|]; split; [discriminate|]; split; [vm_compute; reflexivity|left; reflexivity]].
  exists [[97; 98; 40; 120; 41; 10]; [97; 40; 120; 41; 10]]%N. split.
  - apply (ul_use [97; 98; 40; 120; 41; 10]%N [97; 40; 120; 41; 10]%N).
    + split; [discriminate|]. exists [97; 98; 40; 120; 41]%N. split; [repeat constructor; discriminate|auto].
    + exists [97; 98; 40; 120; 41]%N. reflexivity.
    + apply skippable_false. reflexivity.
    + rewrite <- (app_nil_r [97; 40; 120; 41; 10]%N) at 1. apply ul_use; [| | |constructor].
      * split; [discriminate|]. exists [97; 40; 120; 41]%N. split; [repeat constructor; discriminate|auto].
      * exists [97; 40; 120; 41]%N. reflexivity.
      * apply skippable_false. reflexivity.
  - repeat constructor.
    + apply (u_paren [97; 98]%N [120]%N [10]%N); cbn; intuition discriminate.
    + apply (u_paren [97]%N [120]%N [10]%N); cbn; intuition discriminate.
Qed.
(** An id without the separator gets the speaker of the utterance before. *)
Theorem C71_previous_speaker_refuted : exists ref hyp a b, align_trans_mode true SPUID ref hyp = Ok [a; b] /\
  u_id a <> u_id b /\ u_spk a = u_spk b /\ u_spk a = [115]%N /\ ~ In 115%N (u_id b).
Proof.
  exists [97; 40; 115; 45; 49; 41; 10; 98; 40; 116; 41; 10]%N, [97; 40; 115; 45; 49; 41; 10; 98; 40; 116; 41; 10]%N.
  eexists _, _. split; [vm_compute; reflexivity|]. cbn. split; [discriminate|]. split; [reflexivity|]. split; [reflexivity|]. intuition discriminate.
Qed.
(** Parentheses in the wrong order: the program writes outside its buffer. *)
Theorem C70_parentheses_refuted : exists ref hyp, align_trans_mode true SP ref hyp = Undef.
Proof. exists [97; 40; 120; 41; 10]%N, [97; 41; 120; 120; 40; 10]%N. vm_compute. reflexivity. Qed.
(** A long id runs over the buffer of the speaker. *)
Theorem C71_long_id_refuted : exists id t, Utterance (t ++ id) t id /\ exists r h, align_trans_mode true SP r h = Undef /\ h = t ++ id ++ [10%N] /\ r = h.
Proof.
  exists (40%N :: repeat 120%N 1000 ++ [41%N]), [97%N]. split.
  - apply (u_paren [97%N] (repeat 120%N 1000) []); [intro I; apply repeat_spec in I; discriminate|intros []|intros []].
  - eexists _, _. split; [|split; reflexivity]. vm_compute. reflexivity.
Qed.

Print Assumptions C70_pairing.
Print Assumptions C70_sound.
Print Assumptions C70_any_order.
Print Assumptions C70_lines.
Print Assumptions C70_total.
Print Assumptions C71_speakers.
Print Assumptions C71_total.
Print Assumptions C70_last_line_refuted.
Print Assumptions C70_two_texts_refuted.
Print Assumptions C71_previous_speaker_refuted.
Print Assumptions C70_parentheses_refuted.
Print Assumptions C71_long_id_refuted.

(** Two utterances out of order, a comment, upper case: the hypotheses hold and the run pairs them. *)
Definition exref : str := [59; 59; 10; 65; 40; 115; 45; 49; 41; 10; 98; 40; 116; 45; 49; 41; 10]%N.
Definition exhyp : str := [67; 40; 84; 45; 49; 41; 10; 10; 97; 40; 115; 45; 49; 41; 10]%N.
Example ex_run : align_trans_mode false SPUID exref exhyp = Ok
  [{| u_spk := [116]; u_id := [40; 116; 45; 49; 41]; u_ref := [98]; u_hyp := [99] |};
   {| u_spk := [115]; u_id := [40; 115; 45; 49; 41]; u_ref := [97]; u_hyp := [97] |}]%N.
Proof. vm_compute. reflexivity. Qed.
Ltac line x := split; [discriminate|]; exists x; split; [repeat constructor; discriminate|auto].
Example ex_transcripts : Transcripts false exhyp [([99], [40; 116; 45; 49; 41]); ([97], [40; 115; 45; 49; 41])]%N.
Proof.
  exists [[67; 40; 84; 45; 49; 41; 10]; [97; 40; 115; 45; 49; 41; 10]]%N. split.
  - apply (ul_use [67; 40; 84; 45; 49; 41; 10]%N [10; 97; 40; 115; 45; 49; 41; 10]%N).
    + line [67; 40; 84; 45; 49; 41]%N.
    + exists [67; 40; 84; 45; 49; 41]%N. reflexivity.
    + apply skippable_false. reflexivity.
    + apply (ul_skip [10]%N [97; 40; 115; 45; 49; 41; 10]%N).
      * line (@nil N).
      * exists []. reflexivity.
      * apply skippable_iff. reflexivity.
      * rewrite <- (app_nil_r [97; 40; 115; 45; 49; 41; 10]%N) at 1. apply ul_use; [| | |constructor].
        -- line [97; 40; 115; 45; 49; 41]%N.
        -- exists [97; 40; 115; 45; 49; 41]%N. reflexivity.
        -- apply skippable_false. reflexivity.
  - repeat constructor.
    + apply (u_paren [99]%N [116; 45; 49]%N [10]%N); cbn; intuition discriminate.
    + apply (u_paren [97]%N [115; 45; 49]%N [10]%N); cbn; intuition discriminate.
Qed.
Example ex_fits : Fits [([97], [40; 115; 45; 49; 41]); ([98], [40; 116; 45; 49; 41])]%N [([99], [40; 116; 45; 49; 41]); ([97], [40; 115; 45; 49; 41])]%N.
Proof.
  split; [repeat constructor; cbn; intuition discriminate|]. intros id [<-|[<-|[]]].
  - exists [98]%N. split; [eexists [_], []; split; [reflexivity|cbn; intuition discriminate]|]. intros t' [E|[E|[]]]; [discriminate|]. injection E as <-. exists []. reflexivity.
  - exists [97]%N. split; [eexists [], _; split; [reflexivity|cbn; tauto]|]. intros t' [E|[E|[]]]; [|discriminate]. injection E as <-. exists []. reflexivity.
Qed.
Example ex_speakers : Speakers SPUID [] [[40; 116; 45; 49; 41]; [40; 115; 45; 49; 41]]%N [[116]; [115]]%N /\ Forall short [[116]; [115]]%N.
Proof.
  split; [|repeat constructor; unfold short, LOAD_BUFF_LEN; apply Nat.ltb_lt; reflexivity].
  constructor; [left; exists 40%N, [49; 41]%N; cbn; intuition discriminate|].
  constructor; [left; exists 40%N, [49; 41]%N; cbn; intuition discriminate|constructor].
Qed.
