(** Proofs about Chan_Model: the segments of a channel, the flags, the channels. *)
From Coq Require Import List NArith ZArith Arith Bool Lia.
From Verif Require Import Base Chan_Model Chan_Spec Chan_Proofs.
Import ListNotations.
Local Open Scope res_scope.
Local Open Scope Z_scope.

Lemma marked_words us ms : Forall2 marked us ms -> map the_word (List.concat ms) = flat_map spell us.
Proof. induction 1 as [|u m us ms [F _] _ IH]; cbn [List.concat flat_map]; [reflexivity|]. rewrite map_app, F, IH. reflexivity. Qed.

Lemma seg_used_iff o ws s : seg_used o ws s = true <-> used o ws s.
Proof.
  unfold seg_used, used. destruct (reduce_ref o); [|split; auto; discriminate].
  destruct ws as [|w0 r]; [split; auto|].
  rewrite negb_true_iff, orb_false_iff, !Z.leb_gt. split; auto.
Qed.

Lemma shows_intro hyp stm c s us : nth_error stm (Z.to_nat (c_seg c)) = Some s -> 0 <= c_seg c ->
  words_of hyp (c_from c) (c_to c) = flat_map spell us -> c_scored c = negb (ignored_text s) -> shows hyp stm c (s, us).
Proof.
  intros A B C D. repeat split; auto; cbn [fst snd]; rewrite D, <- ignored_text_iff; destruct (ignored_text s); cbn [negb]; congruence.
Qed.

Lemma map_words_of hyp (hp m hq : list mword) a b us : hyp = hp ++ m ++ hq -> a = Z.of_nat (length hp) + 1 ->
  b = Z.of_nat (length hp) + Z.of_nat (length m) -> map the_word m = flat_map spell us ->
  words_of (map the_word hyp) a b = flat_map spell us.
Proof.
  intros -> -> -> E. rewrite !map_app. rewrite E. apply words_of_at; rewrite map_length; [lia|].
  rewrite <- E, map_length. reflexivity.
Qed.

Lemma length_units us ms : Forall2 marked us ms -> (length us <= length (List.concat ms))%nat.
Proof.
  induction 1 as [|u m us ms [F _] _ IH]; cbn [List.concat length]; [lia|]. rewrite app_length.
  destruct m; [destruct u; discriminate F|cbn [length]; lia].
Qed.

Lemma channel_loop_spec o ws h_end r_end : forall segs sp_ sq hp hq us ms hyp stm rs c e,
  stm = sp_ ++ segs ++ sq -> hyp = hp ++ List.concat ms ++ hq ->
  Forall well_formed us -> Forall2 marked us ms ->
  rs = Z.of_nat (length sp_) -> c = Z.of_nat (length hp) + 1 -> e = Z.of_nat (length hp) ->
  h_end = Z.of_nat (length hp) + Z.of_nat (length (List.concat ms)) ->
  (r_end = rs + Z.of_nat (length segs) - 1 \/ (sq = [] /\ r_end = Z.of_nat (length stm))) ->
  exists gs lf l, Given (used o ws) segs us gs lf /\
    channel_loop o hyp stm ws h_end r_end segs rs c e = Ok l /\ Forall2 (shows (map the_word hyp) stm) l gs.
Proof.
  induction segs as [|s r IH]; intros sp_ sq hp hq us ms hyp stm rs c e Es Eh W M -> -> -> Hh Hr.
  - exists [], us, []. repeat split; constructor.
  - cbn [channel_loop].
    assert (Hsk : (reduce_ref o || reduce_hyp o) && negb (seg_used o ws s) = negb (seg_used o ws s)).
    { unfold seg_used. destruct (reduce_ref o); cbn [orb]; [reflexivity|]. cbn [negb]. apply andb_false_r. }
    rewrite Hsk. clear Hsk.
    assert (Hnext : r_end = Z.of_nat (length (sp_ ++ [s])) + Z.of_nat (length r) - 1 \/ (sq = [] /\ r_end = Z.of_nat (length stm))).
    { destruct Hr as [Hr|Hr]; [left|right; exact Hr]. rewrite app_length. cbn [length] in *. lia. }
    assert (Es' : stm = (sp_ ++ [s]) ++ r ++ sq) by (rewrite <- app_assoc; exact Es).
    assert (Hrs : Z.of_nat (length sp_) + 1 = Z.of_nat (length (sp_ ++ [s]))) by (rewrite app_length; cbn [length]; lia).
    assert (Hnth : nth_error stm (Z.to_nat (Z.of_nat (length sp_))) = Some s).
    { rewrite Nat2Z.id, Es, nth_error_app2, Nat.sub_diag by lia. reflexivity. }
    destruct (seg_used o ws s) eqn:EU; cbn [negb].
    + assert (HU : used o ws s) by (apply seg_used_iff; exact EU).
      unfold segment_hyp_for_utt.
      destruct r as [|s2 r].
      * assert (HL : (Z.of_nat (length sp_) =? r_end) || (Z.of_nat (length sp_) =? Z.of_nat (length stm) - 1) = true).
        { rewrite Es. rewrite !app_length. cbn [length]. destruct Hr as [Hr|[-> Hr]]; apply orb_true_iff.
          - left. apply Z.eqb_eq. cbn [length] in Hr. lia.
          - right. apply Z.eqb_eq. cbn [length]. lia. }
        rewrite HL. cbn [rbind channel_loop].
        eexists [(s, us)], [], _. split; [constructor; exact HU|]. split; [reflexivity|].
        constructor; [|constructor]. apply shows_intro; cbn [c_seg c_from c_to c_scored]; auto; [lia|].
        eapply map_words_of; [exact Eh|lia|lia|apply marked_words; exact M].
      * assert (HL : (Z.of_nat (length sp_) =? r_end) || (Z.of_nat (length sp_) =? Z.of_nat (length stm) - 1) = false).
        { rewrite Es. rewrite !app_length. cbn [length] in *. apply orb_false_iff. split; apply Z.eqb_neq; [|lia].
          destruct Hr as [Hr|[-> Hr]]; [lia|]. rewrite Hr, Es, !app_length. cbn [length]. lia. }
        rewrite HL, Hnth.
        destruct (take_words_spec (S (length hyp)) us ms hp hq (s_t2 s) h_end W M Hh) as
          (us1 & us2 & ms1 & ms2 & -> & -> & M1 & M2 & B1 & B2 & HT).
        { apply length_units in M. rewrite Eh, !app_length in *. lia. }
        rewrite <- Eh in HT. rewrite HT. cbn [rbind].
        apply Forall_app in W as [W1 W2].
        assert (Hlen : Z.of_nat (length hp) + Z.of_nat (length (List.concat ms1)) = Z.of_nat (length (hp ++ List.concat ms1))) by (rewrite app_length; lia).
        rewrite concat_app in Eh.
        assert (Eh2 : hyp = (hp ++ List.concat ms1) ++ List.concat ms2 ++ hq) by (rewrite Eh, <- !app_assoc; reflexivity).
        destruct (IH (sp_ ++ [s]) sq (hp ++ List.concat ms1) hq us2 ms2 hyp stm
                     (Z.of_nat (length sp_) + 1) (Z.of_nat (length hp) + Z.of_nat (length (List.concat ms1)) + 1)
                     (Z.of_nat (length hp) + Z.of_nat (length (List.concat ms1))) Es' Eh2 W2 M2 Hrs) as (gs & lf & l & HG & HC & HS).
        { lia. }
        { lia. }
        { rewrite Hh, concat_app, !app_length. lia. }
        { rewrite Hrs. exact Hnext. }
        rewrite HC. cbn [rbind].
        eexists ((s, us1) :: gs), lf, _. split; [|split; [reflexivity|]].
        -- apply g_take; auto; discriminate.
        -- constructor; [|exact HS]. apply shows_intro; cbn [c_seg c_from c_to c_scored]; auto; [lia|].
           eapply (map_words_of _ hp (List.concat ms1) (List.concat ms2 ++ hq)); [|lia|reflexivity|apply marked_words; exact M1].
           rewrite Eh, <- !app_assoc. reflexivity.
    + assert (HU : ~ used o ws s) by (rewrite <- seg_used_iff, EU; discriminate).
      destruct (IH (sp_ ++ [s]) sq hp hq us ms hyp stm
                   (Z.of_nat (length sp_) + 1) (Z.of_nat (length hp) + 1) (Z.of_nat (length hp)) Es' Eh W M Hrs eq_refl eq_refl Hh) as (gs & lf & l & HG & HC & HS).
      { rewrite Hrs. exact Hnext. }
      exists gs, lf, l. split; [constructor; auto|]. split; [exact HC|exact HS].
Qed.

(** Given is a function of the words and the segments. *)
Lemma split_unique (P : unit -> Prop) : forall a b a' b', a ++ b = a' ++ b' -> Forall P a -> Forall P a' ->
  match b with u :: _ => ~ P u | [] => True end -> match b' with u :: _ => ~ P u | [] => True end -> a = a' /\ b = b'.
Proof.
  induction a as [|x a IH]; intros b a' b' E Pa Pa' Nb Nb'.
  - destruct a' as [|y a']; [auto|]. cbn [app] in E. subst b. inversion Pa'; subst. contradiction.
  - inversion Pa; subst. destruct a' as [|y a'].
    + cbn [app] in E. subst b'. contradiction.
    + cbn [app] in E. inversion E; subst. inversion Pa'; subst. destruct (IH b a' b') as [-> ->]; auto.
Qed.
Lemma given_unique U segs us gs lf : Given U segs us gs lf -> forall gs' lf', Given U segs us gs' lf' -> gs = gs' /\ lf = lf'.
Proof.
  induction 1 as [us|s r us gs lf NU G IH|s us HU|s r us us' gs lf HU NR Fb Nb G IH]; intros gs' lf' G'.
  - inversion G'; subst; auto.
  - inversion G'; subst; try contradiction. apply IH. assumption.
  - inversion G'; subst; try contradiction; auto.
  - inversion G' as [|? ? ? ? ? NU'|? ? ?|? ? u1 u2 g l HU' NR' Fb' Nb' G2]; subst; try contradiction.
    match goal with E : _ ++ _ = _ ++ _ |- _ => symmetry in E; destruct (split_unique _ _ _ _ _ E Fb Fb' Nb Nb') as [-> ->] end.
    destruct (IH _ _ G2) as [-> ->]. auto.
Qed.
Lemma given_concat U segs us gs lf : Given U segs us gs lf -> us = List.concat (map snd gs) ++ lf.
Proof.
  induction 1 as [us|s r us gs lf NU G IH|s us HU|s r us us' gs lf HU NR Fb Nb G IH]; cbn [map List.concat snd]; auto.
  - cbn [app]. rewrite !app_nil_r. reflexivity.
  - rewrite <- app_assoc, <- IH. reflexivity.
Qed.
Lemma given_all U segs us gs lf : Given U segs us gs lf -> segs <> [] -> U (last segs {| file := []; chan := []; s_t1 := 0; s_t2 := 0; text := [] |}) -> lf = [].
Proof.
  induction 1 as [us|s r us gs lf NU G IH|s us HU|s r us us' gs lf HU NR Fb Nb G IH]; intros NE HL; auto.
  - contradiction.
  - destruct r; [cbn [last] in HL; contradiction|]. apply IH; [discriminate|]. exact HL.
  - apply IH; [exact NR|]. destruct r; [contradiction|exact HL].
Qed.
Lemma given_segs U segs us gs lf : Given U segs us gs lf -> (forall s, In s segs -> U s) -> map fst gs = segs.
Proof.
  induction 1 as [us|s r us gs lf NU G IH|s us HU|s r us us' gs lf HU NR Fb Nb G IH]; intros HA; cbn [map fst]; auto.
  - exfalso. apply NU, HA. left. reflexivity.
  - rewrite IH; [reflexivity|]. intros x Hx. apply HA. right. exact Hx.
Qed.
