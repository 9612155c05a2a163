(** Alignments of two networks that say given readings. *)
From Coq Require Import List NArith ZArith Arith Bool Lia.
From Verif Require Import Base Net_Model Net_Spec Merge_Model NetDp_Model NetDp_Spec NetDp_Proofs5 Text_Model Text_Spec Word_Model Word_Spec Word_Thm
  Anet_Model Anet_Spec Anet_Proofs4 Anet_Proofs5.
Import ListNotations.

Lemma aligned_readings e G1 G2 (R1 R2 : list word -> Prop) nulls T fuel : wf_net G1 -> wf_net G2 ->
  (forall a, nsays G1 a <-> exists r, R1 r /\ a = map Some r) -> (forall a, nsays G2 a <-> exists r, R2 r /\ a = map Some r) ->
  (forall r w, R1 r \/ R2 r -> In w r -> fine e w) ->
  (Z.of_nat (n_arcs G1) < 65534 /\ Z.of_nat (n_arcs G2) < 65534)%Z -> S (n_nodes G1) < fuel -> S (n_nodes G2) < fuel ->
  exists A B c path p r h,
    dpalign (wwd_word e) (word_equal e) (word_null e) word_opt word_empty nulls fuel T G1 G2 = Ok (A, B, (Some c, path))
    /\ R1 r /\ R2 h /\ pairs p r h /\ total p = c
    /\ (forall r' h' p', R1 r' -> R2 h' -> pairs p' r' h' -> (c <= total p')%Z)
    /\ path = map shows (filter (fun q => nulls || negb (only_nulls q)) p).
Proof.
  intros W1 W2 S1 S2 GW Hs F1 F2.
  pose proof (no_null G1 R1 W1 S1) as D1. pose proof (no_null G2 R2 W2 S2) as D2.
  assert (FW1 : forall w, word_in G1 (Some w) -> fine e w).
  { intros w Hw. destruct (word_in_reading G1 _ W1 S1 w Hw) as (r & Hr & Hi). eauto. }
  assert (FW2 : forall w, word_in G2 (Some w) -> fine e w).
  { intros w Hw. destruct (word_in_reading G2 _ W2 S2 w Hw) as (r & Hr & Hi). eauto. }
  destruct (C25_words_aligned_at_least_cost e (word_equal e) (word_null e) word_opt word_empty G1 G2 nulls fuel T W1 W2 D1 D2)
    as (A & B & c & path & s & ED & HA & HC & HM & HP); [intros w Hw; apply (FW1 w Hw)|intros w Hw; apply (FW2 w Hw)|exact Hs|exact F1|exact F2|].
  assert (FA : forall s', is_alignment G1 G2 s' ->
    Forall (fun q => (fst (wpair G1 G2 q) <> None \/ snd (wpair G1 G2 q) <> None) /\ fine_opt e (fst (wpair G1 G2 q)) /\ fine_opt e (snd (wpair G1 G2 q))) s').
  { intros s' (Q1 & Q2 & Q3). apply Forall_forall. intros [a b] Hq.
    assert (KA : forall x, a = Some x -> word_in G1 (n_data G1 x) /\ n_data G1 x <> None).
    { intros x Ex. apply (path_words G1 (firsts s') D1 Q1). exact (in_firsts s' _ Hq x Ex). }
    assert (KB : forall x, b = Some x -> word_in G2 (n_data G2 x) /\ n_data G2 x <> None).
    { intros x Ex. apply (path_words G2 (seconds s') D2 Q2). exact (in_seconds s' _ Hq x Ex). }
    unfold wpair. cbn [fst snd]. split; [|split].
    - destruct a as [x|]; [left; exact (proj2 (KA x eq_refl))|]. destruct b as [y|]; [right; exact (proj2 (KB y eq_refl))|]. contradiction.
    - destruct a as [x|]; cbn [NetDp_Spec.word_of]; [|exact I]. destruct (KA x eq_refl) as [K _]. destruct (n_data G1 x) as [w|]; cbn [fine_opt]; auto.
    - destruct b as [x|]; cbn [NetDp_Spec.word_of]; [|exact I]. destruct (KB x eq_refl) as [K _]. destruct (n_data G2 x) as [w|]; cbn [fine_opt]; auto. }
  destruct HA as (Q1 & Q2 & Q3). pose proof (FA s (conj Q1 (conj Q2 Q3))) as FS.
  destruct (full_says G1 _ S1 _ Q1) as (r & Hr & Er). destruct (full_says G2 _ S2 _ Q2) as (h & Hh & Eh).
  exists A, B, c, path, (map (wpair G1 G2) s), r, h. split; [exact ED|]. split; [exact Hr|]. split; [exact Hh|]. split; [|split; [|split]].
  - split; [|split].
    + apply map_Some_inj. rewrite <- Er. apply lefts_map. intros x Hx. apply (path_words G1 _ D1 Q1 x Hx).
    + apply map_Some_inj. rewrite <- Eh. apply rights_map. intros x Hx. apply (path_words G2 _ D2 Q2 x Hx).
    + intros K. apply in_map_iff in K. destruct K as (q & Eq & Hq). rewrite Forall_forall in FS. destruct (FS q Hq) as (N & _). rewrite Eq in N. cbn in N. destruct N; congruence.
  - rewrite <- (cost_total e G1 G2 s FS). exact HC.
  - intros r' h' p' Hr' Hh' (L1 & L2 & L3). destruct (says_full G1 _ S1 r' Hr') as (xs & X1 & X2). destruct (says_full G2 _ S2 h' Hh') as (ys & Y1 & Y2).
    rewrite <- L1 in X2. rewrite <- L2 in Y2. destruct (lift G1 G2 p' L3 xs ys X2 Y2) as (s' & <- & <- & N' & <-).
    assert (HA' : is_alignment G1 G2 s') by (repeat split; assumption). rewrite <- (cost_total e G1 G2 s' (FA s' HA')). apply HM. exact HA'.
  - assert (DS : Forall (fun q => (forall x, fst q = Some x -> n_data G1 x <> None) /\ (forall y, snd q = Some y -> n_data G2 y <> None)) s).
    { apply Forall_forall. intros q Hq. split; intros x Ex.
      - apply (path_words G1 _ D1 Q1 x). exact (in_firsts s q Hq x Ex).
      - apply (path_words G2 _ D2 Q2 x). exact (in_seconds s q Hq x Ex). }
    rewrite HP. clear HP HM HC ED Q1 Q2 Q3 Er Eh. induction FS as [|q s (N & K1 & K2) FS IH]; [reflexivity|].
    pose proof (Forall_inv DS) as [DX DY]. apply Forall_inv_tail in DS.
    assert (ES : shown (word_null e) nulls G1 G2 q = nulls || negb (only_nulls (wpair G1 G2 q)) /\ entry_of (word_equal e) word_opt word_empty G1 G2 q = shows (wpair G1 G2 q)).
    { destruct q as [[x0|] [y0|]]; unfold shown, entry_of, wpair in *; cbn [fst snd NetDp_Spec.word_of] in *.
      - specialize (DX x0 eq_refl). specialize (DY y0 eq_refl).
        destruct (n_data G1 x0) as [a|]; [|congruence]. destruct (n_data G2 y0) as [b|]; [|congruence]. cbn [fine_opt] in *.
        unfold word_null, word_equal. rewrite (at_value e a K1), (at_value e b K2). destruct (equal_value e a b K1 K2) as (z & -> & Hz). cbn [only_nulls shows]. rewrite Hz. auto.
      - specialize (DX x0 eq_refl). destruct (n_data G1 x0) as [a|]; [|congruence]. cbn [fine_opt] in *.
        unfold word_null, word_opt. rewrite (at_value e a K1), (proj1 (proj1 K1)). auto.
      - specialize (DY y0 eq_refl). destruct (n_data G2 y0) as [b|]; [|congruence]. cbn [fine_opt] in *.
        unfold word_null, word_opt. rewrite (at_value e b K2), (proj1 (proj1 K2)). auto.
      - destruct N; congruence. }
    destruct ES as [ES1 ES2]. cbn [filter map]. rewrite ES1. destruct (nulls || negb (only_nulls (wpair G1 G2 q))); cbn [map]; rewrite ?ES2, (IH DS); reflexivity.
Qed.
