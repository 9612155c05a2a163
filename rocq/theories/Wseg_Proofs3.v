(** The lexicon, and the network of words. *)
From Coq Require Import List NArith ZArith Arith Bool Lia Sorted.
From Verif Require Import Base Net_Model Net_Spec Net_Proofs1 Text_Model Text_Spec Text_Proofs1 Text_Thm Word_Model Word_Spec Word_Proofs Trn_Proofs Anet_Model Anet_Spec Cnet_Spec Wseg_Model Wseg_Spec Wseg_Proofs1 Wseg_Proofs2.
Import ListNotations.
Local Open Scope res_scope.

Section Lexicon.
Variable e : enc.
Lemma order3 s1 s2 s3 : well_formed e s1 -> well_formed e s2 -> well_formed e s3 ->
  exists z12 z21 z23 z13, strcmp e (cstr s1) (cstr s2) = Ok z12 /\ strcmp e (cstr s2) (cstr s1) = Ok z21 /\ strcmp e (cstr s2) (cstr s3) = Ok z23 /\ strcmp e (cstr s1) (cstr s3) = Ok z13
    /\ (z12 = 0%Z <-> s1 = s2) /\ (z12 = -1 \/ z12 = 0 \/ z12 = 1)%Z /\ z21 = (- z12)%Z /\ ((z12 <= 0)%Z -> (z23 <= 0)%Z -> (z13 <= 0)%Z).
Proof. intros H1 H2 H3. apply (C40_comparison_is_a_total_order e _ _ _ s1 s2 s3); try assumption; eapply well_formed_holds; eassumption. Qed.

Definition wle (s t : list N) : Prop := well_formed e s /\ well_formed e t /\ in_order e s t.
Lemma wle_trans s t u : wle s t -> wle t u -> wle s u.
Proof.
  intros (A & B & z & E & L) (_ & C & z' & E' & L'). split; [exact A|]. split; [exact C|].
  destruct (order3 s t u A B C) as (z12 & z21 & z23 & z13 & E12 & _ & E23 & E13 & _ & _ & _ & T). exists z13. split; [exact E13|].
  change (strcmp e (cstr s) (cstr t) = Ok z) in E. change (strcmp e (cstr t) (cstr u) = Ok z') in E'. rewrite E12 in E. rewrite E23 in E'. injection E as ->. injection E' as ->. auto.
Qed.
Lemma wle_refl s : well_formed e s -> wle s s.
Proof. intros A. split; [exact A|]. split; [exact A|]. destruct (strcmp_text e s s A A) as (z & E & Z0). exists z. split; [exact E|]. assert (z = 0%Z) by tauto. lia. Qed.
Lemma lex_strong lex : sorted_lexicon e lex -> StronglySorted wle lex.
Proof.
  intros (F & S). apply Sorted_StronglySorted; [intros a b c; apply wle_trans|]. induction S as [|a l S IH H]; constructor; [apply IH, (Forall_inv_tail F)|].
  destruct H as [|b l K]; constructor. split; [apply (Forall_inv F)|]. split; [apply (Forall_inv (Forall_inv_tail F))|exact K].
Qed.
Lemma strong_nth l : StronglySorted wle l -> forall i j a b, i < j -> nth_error l i = Some a -> nth_error l j = Some b -> wle a b.
Proof.
  induction 1 as [|y l S IH F]; intros i j a b L A B; [destruct i; discriminate|].
  destruct i as [|i], j as [|j]; cbn [nth_error] in *; try lia.
  - injection A as <-. apply nth_error_In in B. rewrite Forall_forall in F. auto.
  - eapply IH; [|exact A|exact B]. lia.
Qed.
Lemma search_loop_ok l key : StronglySorted wle l -> Forall (well_formed e) l -> well_formed e key -> forall fuel lo hi, hi <= length l -> hi - lo < fuel ->
  (forall i, nth_error l i = Some key -> lo <= i < hi) ->
  (exists i, search_loop fuel e key l lo hi = Ok (Some i) /\ nth_error l i = Some key) \/ (search_loop fuel e key l lo hi = Ok None /\ ~ In key l).
Proof.
  intros S FW WK. induction fuel as [|f IH]; intros lo hi H F K; [lia|]. cbn [search_loop].
  destruct (Nat.ltb_spec lo hi) as [L|L].
  - destruct (div2_between lo hi L) as [M1 M2]. cbv zeta. set (mid := Nat.div2 (lo + hi)) in *.
    destruct (nth_error l mid) as [x|] eqn:Ex.
    + assert (WX : well_formed e x) by (apply nth_error_In in Ex; rewrite Forall_forall in FW; auto).
      destruct (order3 key x x WK WX WX) as (z & z' & _ & _ & E1 & E2 & _ & _ & Z0 & _ & ZN & _). rewrite E1. cbn [rbind].
      assert (CMP : forall a b zz, wle a b -> strcmp e (cstr a) (cstr b) = Ok zz -> (zz <= 0)%Z). { intros a b zz (_ & _ & y & EY & LY) EZ. change (strcmp e (cstr a) (cstr b) = Ok y) in EY. rewrite EZ in EY. injection EY as ->. exact LY. }
      destruct (Z.ltb_spec z 0) as [C|C]; [|destruct (Z.ltb_spec 0 z) as [C'|C']].
      * apply IH; [lia|lia|]. intros i Hi. specialize (K i Hi). split; [lia|].
        destruct (Nat.ltb_spec i mid) as [X|X]; [exact X|exfalso]. destruct (Nat.eq_dec i mid) as [->|NE]; [assert (z = 0%Z) by (apply Z0; congruence); lia|].
        pose proof (CMP x key z' (strong_nth l S mid i x key ltac:(lia) Ex Hi) E2). lia.
      * apply IH; [lia|lia|]. intros i Hi. specialize (K i Hi). split; [|lia].
        destruct (Nat.ltb_spec mid i) as [X|X]; [lia|exfalso]. destruct (Nat.eq_dec i mid) as [->|NE]; [assert (z = 0%Z) by (apply Z0; congruence); lia|].
        pose proof (CMP key x z (strong_nth l S i mid key x ltac:(lia) Hi Ex) E1). lia.
      * left. exists mid. split; [reflexivity|]. rewrite Ex. f_equal. symmetry. apply Z0. lia.
    + exfalso. apply nth_error_None in Ex. lia.
  - right. split; [reflexivity|]. intro I. apply In_nth_error in I. destruct I as (i & Hi). specialize (K i Hi). lia.
Qed.
Lemma in_list_ok lex key : sorted_lexicon e lex -> well_formed e key ->
  (exists i, in_list e lex key = Ok (Some i) /\ nth_error lex i = Some key) \/ (in_list e lex key = Ok None /\ ~ In key lex).
Proof.
  intros S WK. unfold in_list. apply search_loop_ok; [apply lex_strong, S|apply S|exact WK|lia|lia|]. intros i Hi. split; [lia|]. apply nth_error_Some. congruence.
Qed.
Lemma word_in_list_ok lex w : sorted_lexicon e lex -> joinable e w ->
  exists b, word_in_list e lex w = Ok b /\ (b = true <-> In (text_of w) lex).
Proof.
  intros S Jw. unfold word_in_list. rewrite (it_text e w Jw). cbn [rbind]. destruct (in_list_ok lex (text_of w) S) as [(i & -> & H)|(-> & H)]; [apply Jw| |]; cbn [rbind].
  - exists true. split; [reflexivity|]. split; [intros _; eapply nth_error_In; eassumption|reflexivity].
  - exists false. split; [reflexivity|]. split; [discriminate|contradiction].
Qed.

Lemma longest_ok lex : Forall (well_formed e) lex -> forall acc, exists k, longest e lex acc = Ok k /\ acc <= k
  /\ (forall t cs, In t lex -> chars_of e t cs -> length cs <= k) /\ (k = acc \/ exists t cs, In t lex /\ chars_of e t cs /\ length cs = k).
Proof.
  induction lex as [|t lex IH]; intros F acc; cbn [longest].
  - exists acc. split; [reflexivity|]. split; [lia|]. split; [intros t cs []|left; reflexivity].
  - pose proof (Forall_inv F) as WT. pose proof (well_formed_holds e t WT) as HT. destruct WT as (cs & CT).
    rewrite (C57_length_counts_characters e (cstr t) t cs HT CT). cbn [rbind].
    destruct (IH (Forall_inv_tail F) (if Nat.ltb acc (length cs) then length cs else acc)) as (k & E & L & A & B). exists k. split; [exact E|].
    assert (L' : acc <= k /\ length cs <= k) by (destruct (Nat.ltb_spec acc (length cs)); lia). split; [lia|]. split.
    + intros t' cs' [<-|H] C'; [|eauto]. rewrite (C57_characters_are_unique e t cs' cs C' CT). lia.
    + destruct B as [->|(t' & cs' & B1 & B2 & B3)]; [|right; exists t', cs'; split; [right; exact B1|auto]].
      destruct (Nat.ltb_spec acc (length cs)); [right; exists t, cs; split; [left; reflexivity|auto]|left; reflexivity].
Qed.
End Lexicon.

Section Network.
Variable e : enc.
Variable lex : list (list N).
Variable k : nat.
Hypothesis SL : sorted_lexicon e lex.
Variable G : net word.
Hypothesis W : wf_net G.
Hypothesis HJ : forall u x, In x (n_out G u) -> exists w, n_data G x = Some w /\ joinable e w.

Lemma spells_joinable u t ds : spells G u t ds -> Forall (joinable e) ds.
Proof.
  intros (xs & P & E). revert ds E. induction P as [u|u x xs v Hx P IH]; intros [|d ds] E; try discriminate; constructor.
  - cbn in E. injection E as E1 _. destruct (HJ u x Hx) as (w & DW & Jw). congruence.
  - apply IH. cbn in E. congruence.
Qed.
Lemma grouped_parts ok : forall r b, grouped ok r b -> exists gs, r = concat gs /\ Forall2 (fun g w => g = [w] \/ (2 <= length g /\ ok g /\ w = joined g)) gs b.
Proof.
  induction 1 as [|w r a H (gs & -> & F)|g r a L O H (gs & -> & F)].
  - exists []. split; [reflexivity|constructor].
  - exists ([w] :: gs). split; [reflexivity|constructor; [left; reflexivity|exact F]].
  - exists (g :: gs). split; [reflexivity|constructor; [right; auto|exact F]].
Qed.
Lemma parts_grouped (ok : list word -> Prop) gs b : Forall2 (fun g w => g = [w] \/ (2 <= length g /\ ok g /\ w = joined g)) gs b -> grouped ok (concat gs) b.
Proof.
  induction 1 as [|g w gs b H F IH]; [constructor|]. cbn [concat]. destruct H as [->|(L & O & ->)]; [cbn; constructor; exact IH|constructor; assumption].
Qed.

Lemma network_segmented : exists G', fully_connect (append_word e) (word_in_list e lex) (S k) G = Ok G' /\ wf_net G' /\ n_nodes G' = n_nodes G
  /\ n_stop G' = n_stop G
  /\ (forall a, nsays G' a -> exists r b, nsays G (map Some r) /\ segmented lex r b /\ a = map Some b)
  /\ (forall r b, nsays G (map Some r) -> segmented_to (S k) lex r b -> nsays G' (map Some b)).
Proof.
  assert (TS : forall d, joinable e d -> exists b, word_in_list e lex d = Ok b) by (intros d Jd; destruct (word_in_list_ok e lex d SL Jd) as (b & E & _); eauto).
  assert (TT : forall d, joinable e d -> (word_in_list e lex d = Ok true <-> In (text_of d) lex)).
  { intros d Jd. destruct (word_in_list_ok e lex d SL Jd) as (b & -> & HB). split; [intros K; injection K as ->; tauto|intros K; f_equal; tauto]. }
  destruct (fully_connect_ok (append_word e) (word_in_list e lex) (joinable e) (append_joinable e) TS G W HJ k) as (G' & E & V & C).
  exists G'. split; [exact E|]. split; [apply V|]. split; [apply V|]. split; [apply V|].
  pose proof (v_stop _ _ _ _ _ V) as VS. pose proof (v_start _ _ _ _ _ V) as VA. unfold nsays. rewrite VS, VA. destruct (n_stop G) as [t|] eqn:ET.
  - split.
    + intros a (xs & P & <-). destruct (says_sound (append_word e) (word_in_list e lex) (joinable e) G W HJ G' V xs _ _ P) as (dss & ds & S & EM & F).
      pose proof (spells_joinable _ _ _ S) as FJ. exists (concat dss), ds. split; [destruct S as (ys & P' & E'); eauto|]. split; [|exact EM].
      apply parts_grouped. clear - FJ F TT. induction F as [|g d dss ds H F IH]; constructor; cbn [concat] in FJ; apply Forall_app in FJ; destruct FJ as (FG & FJ); [|apply IH, FJ].
      destruct H as [->|(L & JD & T)]; [left; reflexivity|right]. destruct (J_made e g d FG JD) as (_ & M). split; [exact L|]. split; [|apply (m_more _ _ _ M L)].
      rewrite <- (m_text _ _ _ M). apply TT; [apply M|exact T].
    + intros r b (xs & P & EM) SG. destruct (grouped_parts _ r b SG) as (gs & -> & F).
      assert (S : spells G (n_start G) t (concat gs)) by (exists xs; auto). pose proof (spells_joinable _ _ _ S) as FJ.
      apply (says_complete (append_word e) (word_in_list e lex) (joinable e) G W G' V k C gs b _ _ S).
      clear - FJ F TT. induction F as [|g d dss ds H F IH]; constructor; cbn [concat] in FJ; apply Forall_app in FJ; destruct FJ as (FG & FJ); [|apply IH, FJ].
      destruct H as [->|(L & (IL & LK) & ->)]; [left; reflexivity|right]. split; [lia|]. destruct g as [|a g]; [cbn in L; lia|].
      destruct (lfold_made e g (Forall_inv_tail FG) [a] a ltac:(discriminate) (made_one e a (Forall_inv FG))) as (d & ED & M). cbn [app] in M. pose proof (m_more _ _ _ M L) as EJ. subst d.
      split; [eauto|]. apply TT; [apply M|]. rewrite (m_text _ _ _ M). exact IL.
  - split.
    + intros a ->. exists [], []. split; [reflexivity|]. split; [constructor|reflexivity].
    + intros r b ER SG. destruct r; [|discriminate]. destruct (grouped_parts _ _ b SG) as (gs & EC & F). destruct F as [|g d gs ds [->|(L & _)] F]; [reflexivity|discriminate|].
      cbn [concat] in EC. destruct g; [cbn in L; lia|discriminate].
Qed.
End Network.

(** Without null words the pieces of an entry are not more than its characters. *)
Lemma few_pieces e lex k g : longest_entry e lex k -> Forall (joinable e) g -> Forall (fun w => is_null_word w = false) g -> g <> [] -> In (joined_text g) lex -> length g <= k.
Proof.
  intros (_ & LE & _) FJ FN NE IL. assert (ET : joined_text g = concat (map text_of g)).
  { unfold joined_text. assert (EF : filter (fun w => negb (is_null_word w)) g = g). { clear - FN. induction FN as [|w g H FN IH]; [reflexivity|]. cbn. rewrite H, IH. reflexivity. } rewrite EF. destruct g; [congruence|reflexivity]. }
  assert (CH : exists cs, chars_of e (joined_text g) cs /\ length g <= length cs).
  { rewrite ET. clear - FJ. induction FJ as [|w g (_ & NT & (cs & EC & HC) & _) FJ (ds & (ED & HD) & L)]; [exists []; split; [split; [reflexivity|constructor]|cbn; lia]|].
    exists (cs ++ ds). split; [split; [cbn [map concat]; rewrite concat_app; congruence|apply Forall_app; auto]|]. rewrite app_length. cbn [length]. destruct cs; [cbn in EC; congruence|cbn [length]; lia]. }
  destruct CH as (cs & CC & L). specialize (LE _ _ IL CC). lia.
Qed.
Lemma few_pieces_grouped e lex k r b : longest_entry e lex k -> Forall (joinable e) r -> Forall (fun w => is_null_word w = false) r -> segmented lex r b -> segmented_to k lex r b.
Proof.
  intros LE FJ FN H. induction H as [|w r a H IH|g r a L O H IH].
  - constructor.
  - constructor. apply IH; [exact (Forall_inv_tail FJ)|exact (Forall_inv_tail FN)].
  - apply Forall_app in FJ. apply Forall_app in FN. constructor; [exact L| |apply IH; tauto]. split; [exact O|]. apply (few_pieces e lex k g LE); try tauto. destruct g; [cbn in L; lia|discriminate].
Qed.
Lemma to_segmented lex k r b : segmented_to k lex r b -> segmented lex r b.
Proof. induction 1 as [|w r a H IH|g r a L (O & _) H IH]; constructor; assumption. Qed.
