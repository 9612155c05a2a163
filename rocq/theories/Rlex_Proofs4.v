(** Proofs about the reading of RTTM files word by word: the whole file. *)
From Coq Require Import String List NArith ZArith Arith Bool Ascii Lia Sorted.
From Verif Require Import Base Store_Model Store_Proofs Segm_Model Graph_Model Links_Model Links_Spec Links_Proofs Token_Model Alt_Model Alt_Spec Alt_Proofs Alt_Proofs2 AsTrn_Model AsTrn_Spec AsTrn_Proofs AsStm_Model AsStm_Spec AsStm_Proofs1 AsStm_Proofs2 Rttm_Model Rttm_Spec Rttm_Proofs1 Rttm_Proofs2 Rttm_Proofs3 Rttm_Proofs4 Rttm_Proofs5 Rttm_Proofs6 Rlex_Spec Rlex_Proofs Rlex_Proofs2 Rlex_Proofs3.
Import ListNotations.
Local Open Scope res_scope.
Local Notation length := List.length.

Section Numbers.
Variable ms : str -> Z.
Local Notation xinv := (xinv ms).
Lemma lex_skip fuel l n t gs bs : ~ headed "LEXEME" l \/ line_says n l ENone -> xinv gs n t bs -> exists t', lex_step ms fuel l t = Ok t' /\ xinv gs (S n) t' bs.
Proof.
  intros H IV. set (skip := {| x_ps := x_ps t; x_map := x_map t; x_use := x_use t; x_line := S (x_line t); x_elem := x_elem t |}).
  assert (SK : xinv gs (S n) skip bs) by (constructor; try apply IV; cbn [skip x_line]; rewrite (v_n _ _ _ _ _ IV); reflexivity).
  assert (NO : ~ headed "LEXEME" l -> lex_step ms fuel l t = Ok skip) by (intros NH; apply begins_not in NH; unfold lex_step; rewrite NH; reflexivity).
  exists skip. split; [|exact SK]. destruct H as [NH|LS]; [exact (NO NH)|]. inversion LS as [| |a k more HD SP LA SH NK|NS NL]; subst; [|exact (NO NL)].
  unfold lex_step. rewrite (proj2 (begins_iff "LEXEME" l) HD). cbv zeta. rewrite (pieces_spaced _ _ SP), (scan_ok 10 _ SH). cbn [rbind].
  destruct a as [|a0 [|a1 [|a2 [|a3 [|a4 [|a5 [|? ?]]]]]]]; try discriminate. cbn [app firstn buf nth_error rbind].
  assert (E : among (map AsStm_Model.lower k) KEPT = false) by (apply not_true_iff_false; intros K; apply NK, kept_iff, K). rewrite E. reflexivity.
Qed.
Lemma lex_word fuel l n t gs bs g : line_says n l (EWord g) -> understandable ms fuel g -> xinv gs n t bs -> exists t' bs', lex_step ms fuel l t = Ok t' /\ xinv (gs ++ [g]) (S n) t' bs'.
Proof.
  intros LS UN IV. inversion LS as [|ty src chan b d w k spkr conf more HD SP SH KE E2| |]; subst. unfold lex_step. cbv zeta. rewrite (proj2 (begins_iff "LEXEME" l) HD), (pieces_spaced _ _ SP), (scan_ok 10 _ SH). cbn [app firstn rbind buf nth_error]. rewrite (proj2 (kept_iff k) KE).
  set (g := {| g_line := n; g_src := src; g_chan := chan; g_b := b; g_d := d; g_word := w; g_type := k; g_spkr := spkr; g_conf := conf |}) in *.
  pose proof UN as (NQ & DP & a & EA & OA & LF). cbn [g g_word g_d] in NQ, DP, EA.
  assert (EQ : existsb (N.eqb 34) w = false). { apply not_true_iff_false. rewrite existsb_exists. intros (c & IC & E). apply N.eqb_eq in E. subst c. contradiction. } rewrite EQ. clear EQ.
  unfold parse_line_ex. rewrite filter_space_lex_ex. fold (as_line (map ascii_of_N w)). rewrite EA.
  destruct (parse_beside (Some (ms b, ms b + ms d)%Z) (among (map AsStm_Model.lower k) OPTIONAL) fuel a (x_ps t) OA LF (v_wf _ _ _ _ _ IV)) as (ps1 & v & new & -> & TN & FT & WF1 & ED & _ & _ & LI1 & LI2 & SPL & FU). cbn [rbind].
  assert (TIME : forall z, length (ps_toks (x_ps t)) <= z < length (ps_toks ps1) -> tok_ok (Some (ms b, ms b + ms d)%Z) (among (map AsStm_Model.lower k) OPTIONAL) (nth z (ps_toks ps1) no_tok)).
  { intros z Hz. rewrite TN, app_nth2 by lia. rewrite Forall_forall in FT. apply FT, nth_In. rewrite TN, app_length in Hz. lia. }
  rewrite add_all_first_spec.
  2: { intros z Hz. right. cbn [times_of tk_begin sg_begin]. destruct (TIME z (proj2 LI1 z Hz)) as (_ & K). apply K. lia. }
  cbn [rbind sg_first sg_last sg_begin sg_end app]. rewrite add_all_last_spec.
  2: { intros z Hz. right. cbn [times_of tk_end sg_end]. destruct (TIME z (proj2 LI2 z Hz)) as (_ & K). apply K. lia. }
  cbn [rbind sg_first sg_last sg_begin sg_end app]. cbn [r_seg sg_first].
  destruct (word_x ms gs n t bs g ps1 v new a fuel IV UN eq_refl EA OA TN FT WF1 ED LI1 LI2 SPL FU) as (bs' & IV'). eexists. exists bs'. split; [reflexivity|exact IV'].
Qed.
Lemma lex_steps_ok fuel : forall n ls ws, words_say n ls ws -> Forall (understandable ms fuel) ws -> forall gs t bs, xinv gs n t bs -> exists t' bs' n', lex_steps ms fuel ls t = Ok t' /\ xinv (gs ++ ws) n' t' bs'.
Proof.
  induction 1 as [n|n l ls g ws LS H IH|n l ls ws LS H IH]; intros F gs t bs IV.
  - exists t, bs, n. rewrite app_nil_r. auto.
  - inversion F as [|? ? F1 F2]; subst. destruct (lex_word fuel l n t gs bs g LS F1 IV) as (t1 & bs1 & E1 & IV1). cbn [lex_steps]. rewrite E1. cbn [rbind]. destruct (IH F2 _ _ _ IV1) as (t' & bs' & n' & E & IV'). exists t', bs', n'. rewrite <- app_assoc in IV'. auto.
  - destruct (lex_skip fuel l n t gs bs LS IV) as (t1 & E1 & IV1). cbn [lex_steps]. rewrite E1. cbn [rbind]. exact (IH F _ _ _ IV1).
Qed.

(** A run of words of a speaker *)
Definition runs (st : pstate) (zs : list (nat * lexeme)) (speech : list rseg) : Prop :=
  forall p z m r p' y m' r', zs = p ++ z :: m ++ r -> speech = p' ++ y :: m' ++ r' -> length p' = length p -> length m' = length m ->
  forall w, reads st (sg_first (r_seg y)) (sg_last (r_seg (last m' y))) w <-> exists parts, Forall2 lexeme_reads (map snd (z :: m)) parts /\ w = concat parts.
Lemma nth_last {A} (m : list A) : forall y, nth_error (y :: m) (length m) = Some (last m y).
Proof. induction m as [|x m IH]; intros y; [reflexivity|]. cbn [length nth_error]. rewrite IH. f_equal. symmetry. apply (last_cons x y m). Qed.
Lemma nth_mid {A} (p : list A) l k : nth_error (p ++ l) (length p + k) = nth_error l k.
Proof. rewrite nth_error_app2 by lia. f_equal. lia. Qed.
Lemma segments_from st gs : forall zs ys k, length ys = length zs -> (forall j z y, nth_error zs j = Some z -> nth_error ys j = Some y -> lexeme_segment ms st gs (k + j) z y) -> lexeme_segments ms st gs k zs ys.
Proof.
  induction zs as [|z zs IH]; intros [|y ys] k L H; try discriminate; constructor.
  - specialize (H 0 z y eq_refl eq_refl). rewrite Nat.add_0_r in H. exact H.
  - apply IH; [injection L as L; exact L|]. intros j z' y' E E'. replace (S k + j) with (k + S j) by lia. exact (H (S j) z' y' E E').
Qed.

Lemma loaded fuel file ls gs : file_lines file ls -> words_say 0 ls gs -> Forall (understandable ms fuel) gs -> gs <> [] ->
  exists st set names, (forall o, load_lexemes ms o fuel file = Ok (st, set)) /\ StronglySorted before names /\ (forall s, In s names <-> of_speaker s 0 gs <> [])
    /\ Forall2 (fun s speech => lexeme_segments ms st gs 0 (of_speaker s 0 gs) speech /\ runs st (of_speaker s 0 gs) speech) names set.
Proof.
  intros FL WS UN NE. destruct (lex_steps_ok fuel 0 ls gs WS UN [] first_x [] (x_begin ms)) as (t & bs & n & EQ & IV). cbn [app] in IV.
  destruct (owners_gs _ _ _ _ _ IV) as (OW & LB). pose proof (v_blocks _ _ _ _ _ IV) as BL.
  assert (PO : forall s, pos s (owners bs) = map fst (of_speaker s 0 gs)) by (intros s; rewrite OW, of_speaker_pos; reflexivity).
  assert (NM : forall s, In s (map fst (x_map t)) <-> of_speaker s 0 gs <> []). { intros s. rewrite (v_names _ _ _ _ _ IV s), PO. destruct (of_speaker s 0 gs); cbn; split; intros K; congruence. }
  assert (BZ : forall s z, In z (of_speaker s 0 gs) -> exists b, nth_error bs (fst z) = Some b /\ k_g b = snd z).
  { intros s z HZ. destruct (of_speaker_nth s gs 0 z HZ) as (_ & E). rewrite Nat.sub_0_r in E. rewrite <- (v_gs _ _ _ _ _ IV), nth_error_map in E. destruct (nth_error bs (fst z)) as [b|]; [|discriminate]. injection E as E. eauto. }
  assert (SEG : forall s k z y, nth_error (of_speaker s 0 gs) k = Some z -> nth_error (at_key s (x_map t)) k = Some y -> exists b, nth_error bs (fst z) = Some b /\ k_g b = snd z /\ y = k_x b /\ lexfields ms gs k (fst z) (snd z) y).
  { intros s k z y EZ EY. destruct (v_nth _ _ _ _ _ IV s k (fst z)) as (b & EB & EK & FX); [rewrite PO, nth_error_map, EZ; reflexivity|]. destruct (BZ s z (nth_error_In _ _ EZ)) as (b' & EB' & EG). rewrite EB in EB'. injection EB' as <-. rewrite EK in EY. injection EY as <-. exists b. rewrite EG in FX. auto. }
  assert (LEN : forall s, length (at_key s (x_map t)) = length (of_speaker s 0 gs)) by (intros s; rewrite (v_len _ _ _ _ _ IV s), PO, map_length; reflexivity).
  exists (x_ps t), (map snd (x_map t)), (map fst (x_map t)).
  assert (FIRST : forall l x z, In l (map snd (x_map t)) -> In x l -> In z (sg_first (r_seg x)) -> z < length (ps_toks (x_ps t))).
  { intros l x z IL IX IZ. apply in_map_iff in IL. destruct IL as ((s, l') & <- & IP). cbn [snd] in IX. rewrite <- (at_key_in _ (v_keys _ _ _ _ _ IV) s l' IP) in IX. destruct (In_nth_error _ _ IX) as (k & EK).
    destruct (nth_error (of_speaker s 0 gs) k) as [zz|] eqn:EZ. 2: { apply nth_error_None in EZ. rewrite <- LEN in EZ. apply nth_error_None in EZ. congruence. }
    destruct (SEG s k zz x EZ EK) as (b & EB & _ & -> & _). destruct (b_in _ _ BL _ b EB) as (K & IF & _). specialize (IF z IZ). unfold inb in IF. lia. }
  split.
  { intros o. unfold load_lexemes. rewrite (getlines_ok _ _ FL), EQ. cbn [rbind]. destruct (x_map t) as [|e m] eqn:EM.
    - exfalso. destruct gs as [|g gs']; [congruence|]. assert (K : of_speaker (g_spkr g) 0 (g :: gs') <> []) by (cbn [of_speaker]; destruct (list_eq_dec N.eq_dec (g_spkr g) (g_spkr g)); [discriminate|congruence]). apply NM in K. destruct K.
    - apply expand_nothing; [apply IV|apply IV|exact FIRST]. }
  split; [apply IV|]. split; [exact NM|].
  assert (ALL : forall s, lexeme_segments ms (x_ps t) gs 0 (of_speaker s 0 gs) (at_key s (x_map t)) /\ runs (x_ps t) (of_speaker s 0 gs) (at_key s (x_map t))).
  { intros s. split.
    - apply segments_from; [apply LEN|]. intros k (i, g) y EZ EY. destruct (SEG s k (i, g) y EZ EY) as (b & EB & EG & -> & FX). cbn [fst snd] in *. destruct FX as (A1 & A2 & A3 & A4 & A5 & A6 & A7 & A8 & A9). unfold lexeme_segment. cbn [Nat.add]. repeat (split; [assumption|]).
      intros w. change (reads (x_ps t) (k_first b) (k_last b) w <-> lexeme_reads g w). rewrite (one_reads _ _ BL i b w EB), <- EG. apply (v_inner _ _ _ _ _ IV i b EB).
    - intros p z m r p' y m' r' EZ ES LP LM w.
      assert (NZ : forall k z', nth_error (z :: m) k = Some z' -> nth_error (of_speaker s 0 gs) (length p + k) = Some z').
      { intros k z' E. rewrite EZ, nth_mid. change (z :: m ++ r) with ((z :: m) ++ r). rewrite nth_error_app1; [exact E|]. apply nth_error_Some. rewrite E. discriminate. }
      assert (NY : forall k y', nth_error (y :: m') k = Some y' -> nth_error (at_key s (x_map t)) (length p + k) = Some y').
      { intros k y' E. rewrite ES, <- LP, nth_mid. change (y :: m' ++ r') with ((y :: m') ++ r'). rewrite nth_error_app1; [exact E|]. apply nth_error_Some. rewrite E. discriminate. }
      destruct (SEG s _ z y (NZ 0 z eq_refl) (NY 0 y eq_refl)) as (b & EB & _ & -> & _). set (y := k_x b) in *.
      destruct (SEG s _ (last m z) (last m' y) (NZ (length m) _ (nth_last m z))) as (bz & EBZ & _ & EY & _); [rewrite <- LM; apply NY, nth_last|]. rewrite EY. subst y.
      change (reads (x_ps t) (k_first b) (k_last bz) w <-> exists parts, Forall2 lexeme_reads (map snd (z :: m)) parts /\ w = concat parts).
      rewrite (run_reads _ _ BL s (map fst m) (fst z) b bz).
      + assert (PART : forall parts, Forall2 (part (x_ps t) bs) (fst z :: map fst m) parts <-> Forall2 lexeme_reads (map snd (z :: m)) parts).
        { change (fst z :: map fst m) with (map fst (z :: m)). assert (IN : forall z', In z' (z :: m) -> In z' (of_speaker s 0 gs)) by (intros z' K; rewrite EZ; apply in_app_iff; right; change (z :: m ++ r) with ((z :: m) ++ r); apply in_app_iff; left; exact K).
          clear - IN BZ IV. induction (z :: m) as [|z' l IH]; intros parts; [split; intros F; inversion F; constructor|].
          assert (ONE : forall q, part (x_ps t) bs (fst z') q <-> lexeme_reads (snd z') q). { intros q. destruct (BZ s z' (IN z' (or_introl eq_refl))) as (b & EB & EG). rewrite <- EG, <- (v_inner _ _ _ _ _ IV _ b EB q). unfold part. split; [intros (b' & EB' & K); rewrite EB in EB'; injection EB' as <-; exact K|intros K; exists b; auto]. }
          cbn [map]. split; intros F; inversion F; subst; constructor; try (apply ONE; assumption); apply IH; try assumption; intros z'' K; apply IN; right; exact K. }
        split; intros (parts & F & ->); exists parts; (split; [apply PART, F|reflexivity]).
      + intros x1 y1 (c1 & c2 & EC). rewrite PO, EZ, map_app. cbn [map]. rewrite map_app. exists (map fst p ++ c1), (c2 ++ map fst r). change (fst z :: map fst m ++ map fst r) with ((fst z :: map fst m) ++ map fst r). rewrite EC, <- !app_assoc. reflexivity.
      + exact EB.
      + rewrite (last_map_cons fst m z). exact EBZ. }
  assert (G : forall m : list (str * list rseg), (forall s l, In (s, l) m -> at_key s (x_map t) = l) -> Forall2 (fun s speech => lexeme_segments ms (x_ps t) gs 0 (of_speaker s 0 gs) speech /\ runs (x_ps t) (of_speaker s 0 gs) speech) (map fst m) (map snd m)).
  { induction m as [|(s, l) m IH]; intros K; constructor; [cbn [fst snd]; rewrite <- (K s l (or_introl eq_refl)); apply ALL|]. apply IH. intros s' l' I'. apply K. right. exact I'. }
  apply G. intros s l I. apply (at_key_in _ (v_keys _ _ _ _ _ IV) s l I).
Qed.
(** Without words there is nothing to read. *)
Lemma no_words o fuel file ls : file_lines file ls -> words_say 0 ls [] -> load_lexemes ms o fuel file = Exit.
Proof.
  intros FL WS. destruct (lex_steps_ok fuel 0 ls [] WS (Forall_nil _) [] first_x [] (x_begin ms)) as (t & bs & n & EQ & IV). cbn [app] in IV. unfold load_lexemes. rewrite (getlines_ok _ _ FL), EQ. cbn [rbind].
  destruct (x_map t) as [|(s, l) m] eqn:EM; [reflexivity|]. exfalso. destruct (owners_gs _ _ _ _ _ IV) as (OW & _). assert (K : In s (map fst (x_map t))) by (rewrite EM; left; reflexivity). apply (v_names _ _ _ _ _ IV) in K. rewrite OW in K. apply K. reflexivity.
Qed.
End Numbers.
