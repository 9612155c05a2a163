(** Proofs about the reading of RTTM files: the whole file, speakers' mode. *)
From Coq Require Import String List NArith ZArith Arith Bool Ascii Lia Sorted.
From Verif Require Import Base Store_Model Store_Proofs Segm_Model Graph_Model Links_Model Links_Spec Links_Proofs Token_Model Alt_Model Alt_Spec Alt_Proofs Alt_Proofs2 AsTrn_Model AsTrn_Spec AsTrn_Proofs AsStm_Model AsStm_Spec AsStm_Proofs1 AsStm_Proofs2 Rttm_Model Rttm_Spec Rttm_Proofs1 Rttm_Proofs2 Rttm_Proofs3 Rttm_Proofs4 Rttm_Proofs5.
Import ListNotations.
Local Open Scope res_scope.
Local Notation length := List.length.

Lemma Forall2_compose {A B C} (R : A -> B -> Prop) (S : B -> C -> Prop) l m : Forall2 R l m -> forall n, Forall2 S m n -> Forall2 (fun a c => exists b, R a b /\ S b c) l n.
Proof. induction 1 as [|a b l m H1 H2 IH]; intros n K; inversion K; subst; constructor; [eauto|apply IH; assumption]. Qed.
Lemma Forall2_weaken {A B} (R S : A -> B -> Prop) l m : (forall a b, In a l -> R a b -> S a b) -> Forall2 R l m -> Forall2 S l m.
Proof. intros H F. induction F as [|a b l m H1 H2 IH]; constructor; [apply H; [left; reflexivity|exact H1]|]. apply IH. intros; apply H; [right; assumption|assumption]. Qed.
Lemma Forall2_app_left {A B} (R : A -> B -> Prop) l1 l2 m : Forall2 R (l1 ++ l2) m -> exists m1 m2, m = m1 ++ m2 /\ Forall2 R l1 m1 /\ Forall2 R l2 m2.
Proof. intros F. apply Forall2_app_inv_l in F. destruct F as (m1 & m2 & F1 & F2 & ->). eauto. Qed.
Lemma Forall2_find {A B} (R : A -> B -> Prop) l m : Forall2 R l m -> forall a, In a l -> exists b, In b m /\ R a b.
Proof. induction 1 as [|a b l m H1 H2 IH]; intros x HI; [destruct HI|]. destruct HI as [<-|K]; [exists b; split; [left; reflexivity|exact H1]|]. destruct (IH x K) as (c & I & E). exists c. split; [right; exact I|exact E]. Qed.
Lemma Forall2_found {A B} (R : A -> B -> Prop) l m : Forall2 R l m -> forall b, In b m -> exists a, In a l /\ R a b.
Proof. induction 1 as [|a b l m H1 H2 IH]; intros x HI; [destruct HI|]. destruct HI as [<-|K]; [exists a; split; [left; reflexivity|exact H1]|]. destruct (IH x K) as (c & I & E). exists c. split; [right; exact I|exact E]. Qed.
Lemma last_in_tail (b : nat) l2 : forall l a, last (l ++ b :: l2) a = last l2 b.
Proof. induction l as [|c l IH]; intros a; [exact (last_cons b a l2)|]. change ((c :: l) ++ b :: l2) with (c :: (l ++ b :: l2)). rewrite last_cons. apply IH. Qed.
Lemma Forall2_len {A B} (R : A -> B -> Prop) l m : Forall2 R l m -> length l = length m.
Proof. induction 1; cbn; congruence. Qed.
Lemma app_cut {A} : forall a c b d : list A, length a = length c -> a ++ b = c ++ d -> a = c /\ b = d.
Proof. induction a as [|x a IH]; intros [|y c] b d L E; try discriminate; [auto|]. cbn [app] in E. injection E as -> E. injection L as L. destruct (IH c b d L E) as (-> & ->). auto. Qed.
Lemma words_of_turn g s : forall es, In g (concat (map snd (turns s es))) \/ In g (words_until s es) -> In (EWord g) es.
Proof.
  induction es as [|e es IH]; [intros [[]|[]]|]. cbn [turns words_until]. destruct e as [q|g'|].
  - destruct (list_eq_dec N.eq_dec (t_spkr q) s); cbn [map concat snd]; intros [K|K]; try destruct K; right; apply IH; [|left; exact K|right; exact K]. apply in_app_iff in K. tauto.
  - destruct (list_eq_dec N.eq_dec (g_spkr g') s); intros [K|K]; [right; apply IH; auto| |right; apply IH; auto|right; apply IH; auto]. destruct K as [->|K]; [left; reflexivity|right; apply IH; auto].
  - intros K. right. apply IH, K.
Qed.

Section Numbers.
Variable ms : str -> Z.
Local Notation tok_of := (tok_of ms).

(** The words from turn [X] to turn [Y] of a speaker *)
Definition spans (o : options) (st : pstate) (ts : list (turn * list lexeme)) (speech : list rseg) : Prop :=
  forall p X m Y r p' x m' y r', ts = p ++ X :: m ++ Y :: r -> speech = p' ++ x :: m' ++ y :: r' -> length p' = length p -> length m' = length m -> snd X <> [] -> snd Y <> [] ->
  forall w, reads st (sg_first (r_seg x)) (sg_last (r_seg y)) w <-> exists parts, Forall2 (word_reads o) (snd X ++ concat (map snd m) ++ snd Y) parts /\ w = concat parts.

Lemma loaded o fuel file ls es : file_lines file ls -> lines_say 0 ls es -> (forall s, Forall (in_time ms) (turns s es)) -> Forall (fun g => 0 <= ms (g_d g) /\ readable o fuel g)%Z (said [] es) ->
  exists st set names, load_speakers ms o fuel file = Ok (st, set, map conf_of (said [] es)) /\ StronglySorted before names /\ (forall s, In s names <-> turns s es <> [])
    /\ Forall2 (fun s speech => turn_segments o ms st 0 (turns s es) speech /\ spans o st (turns s es) speech) names set
    /\ exists more, ps_toks st = map tok_of (said [] es) ++ more.
Proof.
  intros FL LS TI GD. destruct (steps_ok ms 0 ls es LS [] first_y (fun _ => []) (y_begin ms) TI) as (t & css & n & EQ & IV). cbn [app] in IV.
  unfold load_speakers. rewrite (getlines_ok _ _ FL), EQ. cbn [rbind].
  destruct (close_set_ok ms (ps_toks (y_ps t)) (fun s => turns s es) css (y_map t)) as (set & EC & EA).
  { intros s l HI. rewrite <- (at_key_in _ (y_keys _ _ _ _ _ IV) s l HI). apply (y_each _ _ _ _ _ IV). }
  { exact TI. }
  match goal with |- context [close_set ?a ?b] => replace (close_set a b) with (Ok set) by (symmetry; exact EC) end. cbn [rbind]. set (st0 := {| ps_toks := ps_toks (y_ps t); ps_links := fold_left link_speech set (ps_links (y_ps t)) |}). set (names := map fst (y_map t)) in *.
  destruct (link_all_ok set (ps_links (y_ps t))) as (MU & ED).
  assert (COUNT : forall s, length (turns s es) = length (css s)). { intros s. destruct (each_len _ _ _ _ _ (y_each _ _ _ _ _ IV s)) as (A & B). lia. }
  assert (NAMED : forall s c, In c (css s) -> In s names). { intros s c IC. apply (y_names _ _ _ _ _ IV). intros K. specialize (COUNT s). rewrite K in COUNT. destruct (css s); [destruct IC|discriminate]. }
  assert (EDGES : forall x y, edge (ps_links st0) x y <-> exists s, consec (pos s (map g_spkr (said [] es))) x y).
  { intros x y. cbn [st0 ps_links]. rewrite ED, (y_edges _ _ _ _ _ IV). assert (BOTH : forall s, In s names -> exists xs, In xs set /\ each (entry2 ms (ps_toks (y_ps t))) 0 (turns s es) xs (css s)).
    { intros s IS. exact (Forall2_find _ _ _ EA s IS). }
    split.
    - intros [(s & c & IC & CC)|(xs & IX & J)].
      + exists s. rewrite <- (y_pos _ _ _ _ _ IV). destruct (BOTH s (NAMED s c IC)) as (xs & _ & EX). apply (consec_joins _ _ (each_seg_is _ _ _ _ _ _ EX) x y). left. exists c. auto.
      + assert (S : exists s, each (entry2 ms (ps_toks (y_ps t))) 0 (turns s es) xs (css s)). { destruct (Forall2_found _ _ _ EA xs IX) as (s & _ & K). exists s. exact K. }
        destruct S as (s & EX). exists s. rewrite <- (y_pos _ _ _ _ _ IV). apply (consec_joins _ _ (each_seg_is _ _ _ _ _ _ EX) x y). right. exact J.
    - intros (s & C). rewrite <- (y_pos _ _ _ _ _ IV) in C. assert (IS : In s names). { destruct (css s) as [|c cs] eqn:E; [destruct (consec_none _ _ C)|]. apply (NAMED s c). rewrite E. left. reflexivity. }
      destruct (BOTH s IS) as (xs & IX & EX). apply (consec_joins _ _ (each_seg_is _ _ _ _ _ _ EX) x y) in C. destruct C as [(c & IC & CC)|J]; [left; exists s, c; auto|right; exists xs; auto]. }
  assert (GOOD : Forall (fun g => g_word g <> [] /\ (0 <= ms (g_d g))%Z /\ readable o fuel g) (said [] es)).
  { apply Forall_forall. intros g Hg. split; [exact (words_named _ _ _ LS g (said_in g es [] Hg))|]. rewrite Forall_forall in GD. apply GD, Hg. }
  assert (MUT : mutual (ps_links st0)) by (apply MU, IV).
  destruct (expanded0 ms o fuel es css names set st0 (y_toks _ _ _ _ _ IV) (y_pos _ _ _ _ _ IV) MUT EDGES (y_keys _ _ _ _ _ IV) (y_names _ _ _ _ _ IV) EA COUNT TI GOOD) as (st & out & D & Sf & Ef & EX & INV & NOW & ALL).
  rewrite EX. cbn [rbind]. exists st, out, names. rewrite (y_conf _ _ _ _ _ IV). split; [reflexivity|]. split; [apply IV|]. split; [apply (y_names _ _ _ _ _ IV)|].
  split; [|destruct (i_toks _ _ _ _ _ _ INV) as (new & E); exists new; rewrite E; cbn [st0 ps_toks]; rewrite (y_toks _ _ _ _ _ IV); reflexivity].
  eapply Forall2_weaken; [|exact (Forall2_compose _ _ _ _ EA out NOW)]. intros s speech IS (xs & EACH & NW). cbn beta in *.
  assert (SPAN := fun pre a l post ws x1 z1 x2 z2 => span0 ms o es css st0 (y_toks _ _ _ _ _ IV) (y_pos _ _ _ _ _ IV) EDGES st D Sf Ef s pre a l post ws x1 z1 x2 z2 INV ALL).
  assert (NE : forall g, In g (concat (map snd (turns s es))) -> g_word g <> []) by (intros g Hg; apply (words_named _ _ _ LS g), (words_of_turn g s es); left; exact Hg).
  split.
  - assert (G : forall k ys xs cs, each (entry2 ms (ps_toks (y_ps t))) k ys xs cs -> forall zs pre, Forall2 (item_now D Sf Ef) xs zs -> concat (css s) = pre ++ concat cs -> (forall g, In g (concat (map snd ys)) -> g_word g <> []) -> turn_segments o ms st k ys zs).
    { induction 1 as [k|k (q, ws) ys x xs' c cs EN H IH]; intros zs pre FN EC' NG; inversion FN as [|? z ? zs' N1 N2]; subst; constructor.
      - destruct EN as (FX & SI & TX). cbn [fst snd] in FX, TX. pose proof N1 as N1c. destruct N1c as (ZX & N1'). destruct FX as (A1 & A2 & A3 & A4 & A5 & A6 & A7 & A8).
        destruct N1' as (NF & NL & _ & _ & NB & NEN). unfold turn_segment. rewrite NB, NEN. rewrite ZX at 1 2 3 4 5. cbn [with_seg r_src r_chan r_spkr r_line r_elem].
        repeat (split; [assumption|]). split; [rewrite ZX; cbn [with_seg r_id]; exact A8|]. split.
        + intros ->. destruct c as [|? ?]; [|discriminate]. destruct SI as (SF & SL). rewrite SF in NF. rewrite SL in NL. split; apply no_in_nil; intros y K; [apply NF in K|apply NL in K]; destruct K as [([] & _)|(u & _ & [] & _)].
        + intros NW'. destruct c as [|a l]; [destruct ws; [congruence|discriminate]|]. destruct SI as (SF & SL). apply (SPAN pre a l (concat cs) ws x z x z); [exact EC'|exact TX| |exact SF|exact SL|exact N1|exact N1]. intros g Hg. apply NG. cbn [map concat snd]. apply in_app_iff. left. exact Hg.
      - apply (IH zs' (pre ++ c)); [exact N2|rewrite EC', <- app_assoc; reflexivity|]. intros g Hg. apply NG. cbn [map concat]. apply in_app_iff. right. exact Hg. }
    apply (G 0 (turns s es) xs (css s) EACH speech []); [exact NW|reflexivity|exact NE].
  - intros p X m Y r p' x m' y r' ET ES LP LM NX NY w. rewrite ET in EACH. destruct (each_split _ _ _ _ _ _ EACH) as (xs1 & xs2 & cs1 & cs2 & EX1 & EC1 & EA1 & EB). inversion EB as [|? ? ? xx xs3 c1 cs3 ENX EB2]; subst xs2 cs2. clear EB.
    destruct (each_split _ _ _ _ _ _ EB2) as (xs4 & xs5 & cs4 & cs5 & EX2 & EC2 & EA2 & EB3). inversion EB3 as [|? ? ? yy xs6 c2 cs6 ENY EB4]; subst xs5 cs5. clear EB3 EB2. subst xs3 cs3.
    destruct (each_len _ _ _ _ _ EA1) as (LX1 & _), (each_len _ _ _ _ _ EA2) as (LX2 & _). rewrite EX1, ES in NW.
    assert (NX0 : item_now D Sf Ef xx x /\ item_now D Sf Ef yy y).
    { destruct (Forall2_app_left _ _ _ _ NW) as (u1 & u2 & EU & U1 & U2). pose proof (Forall2_len _ _ _ U1) as LU. inversion U2 as [|? z ? u3 U3 U4]; subst u2.
      assert (K : p' = u1 /\ x :: m' ++ y :: r' = z :: u3) by (apply app_cut; [congruence|exact EU]). destruct K as (-> & K). injection K as <- EK. destruct (Forall2_app_left _ _ _ _ U4) as (v1 & v2 & EV & V1 & V2). pose proof (Forall2_len _ _ _ V1) as LV. inversion V2 as [|? z2 ? v3 V3 V4]; subst v2.
      assert (K2 : m' = v1 /\ y :: r' = z2 :: v3) by (apply app_cut; [congruence|rewrite EK; exact EV]). destruct K2 as (-> & K2). injection K2 as <- _. auto. }
    destruct NX0 as (NX0 & NY0). destruct ENX as (_ & SX & TX), ENY as (_ & SY & TY).
    destruct c1 as [|a l]; [destruct (snd X); [congruence|discriminate]|]. destruct SX as (SXF & _). destruct c2 as [|b l2]; [destruct (snd Y); [congruence|discriminate]|]. destruct SY as (_ & SYL).
    apply (SPAN (concat cs1) a (l ++ concat cs4 ++ b :: l2) (concat cs6) (snd X ++ concat (map snd m) ++ snd Y) xx x yy y).
    + rewrite EC1, concat_app. cbn [concat]. rewrite concat_app. cbn [concat app]. rewrite <- !app_assoc. cbn [app]. rewrite <- ?app_assoc. reflexivity.
    + change (a :: l ++ concat cs4 ++ b :: l2) with ((a :: l) ++ concat cs4 ++ b :: l2). rewrite !map_app. cbn [st0 ps_toks]. rewrite TX, (each_words _ _ _ _ _ _ EA2), TY. reflexivity.
    + intros g Hg. apply NE. rewrite ET, map_app, concat_app. cbn [map concat]. rewrite map_app, concat_app. cbn [map concat]. rewrite !in_app_iff in *. tauto.
    + exact SXF.
    + rewrite SYL. f_equal. rewrite app_assoc. symmetry. apply last_in_tail.
    + exact NX0.
    + exact NY0.
Qed.
End Numbers.
