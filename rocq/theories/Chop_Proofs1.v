(** Lemmas for the cuts. *)
From Coq Require Import String List NArith ZArith Arith Bool Lia.
From Verif Require Import Base Chan_Model Chop_Model.
From Verif Require Sil_Model.
Import ListNotations.
Local Open Scope res_scope.
Local Open Scope Z_scope.

Ltac ib H := match type of H with rbind ?e _ = Ok _ => let E := fresh "E" in let m := fresh "m" in destruct e as [m| | |] eqn:E; cbn [rbind] in H; try discriminate H end.
Ltac ip H a b := match type of H with rbind ?e _ = Ok _ => let E := fresh "E" in destruct e as [(a, b)| | |] eqn:E; cbn [rbind] in H; try discriminate H end.

Section Cut.
Variables ref hyp : list mword.
Definition nonalt (i : Z) : Prop := exists w, wd ref i = Ok w /\ alternate w = false.

Lemma skip_some : forall f rs re sk re' sk', skip ref f rs re sk = Ok (re', sk') -> rs - 1 <= re ->
  rs - 1 <= re' <= re /\ (re' < rs \/ nonalt re') /\ (sk' = sk \/ re' < re).
Proof.
  induction f as [|f IH]; intros rs re sk re' sk' H B; [discriminate|]. cbn [skip] in H. destruct (Z.leb_spec rs re).
  - ib H. destruct (alternate m) eqn:EA.
    + apply IH in H; [|lia]. intuition lia.
    + injection H as <- <-. split; [lia|]. split; [right; exists m; auto|auto].
  - injection H as <- <-. split; [lia|]. split; [left; lia|auto].
Qed.
Lemma lower_ref_some : forall f rs re he sk re' sk', lower_ref ref hyp f rs re he sk = Ok (re', sk') -> rs - 1 <= re -> (re < rs \/ nonalt re) ->
  rs - 1 <= re' <= re /\ (re' < rs \/ nonalt re') /\ (sk' = sk \/ re' < re).
Proof.
  induction f as [|f IH]; intros rs re he sk re' sk' H B N1; [discriminate|]. cbn [lower_ref] in H.
  destruct (negb sk && (rs <=? re)) eqn:E1; [|injection H as <- <-; repeat split; auto; lia].
  apply andb_prop in E1. destruct E1 as (_ & E1). apply Z.leb_le in E1. ib H. ib H.
  destruct (_ && _); [|injection H as <- <-; repeat split; auto; lia].
  ip H re1 sk1. apply skip_some in E2; [|lia]. destruct E2 as (B2 & N2 & _). apply IH in H; [|lia|exact N2]. intuition lia.
Qed.
Lemma lower_hyp_some : forall f hs he re he', lower_hyp ref hyp f hs he re = Ok he' -> hs - 1 <= he -> hs - 1 <= he' <= he.
Proof.
  induction f as [|f IH]; intros hs he re he' H B; [discriminate|]. cbn [lower_hyp] in H. destruct (Z.leb_spec hs he); [|injection H as <-; lia].
  ib H. ib H. destruct (_ && _); [apply IH in H; lia|injection H as <-; lia].
Qed.
Lemma sync_some : forall f rs hs re he re' he', sync ref hyp f rs hs re he = Ok (re', he') -> rs - 1 <= re -> hs - 1 <= he -> (re < rs \/ nonalt re) ->
  rs - 1 <= re' <= re /\ hs - 1 <= he' <= he /\ (re' < rs \/ nonalt re').
Proof.
  induction f as [|f IH]; intros rs hs re he re' he' H BR BH N1; [discriminate|]. cbn [sync] in H. ib H. ib H. destruct (_ <? _).
  - ip H re1 sk1. apply lower_ref_some in E1; [|assumption..]. destruct E1 as (B1 & N2 & _). destruct sk1.
    + apply IH in H; [|lia|lia|exact N2]. intuition lia.
    + injection H as <- <-. repeat split; auto; lia.
  - destruct (_ <? _); [|injection H as <- <-; repeat split; auto; lia].
    ib H. apply lower_hyp_some in E1; [|lia]. injection H as <- <-. repeat split; auto; lia.
Qed.
Lemma shift_some : forall f rs hs re he re' he', shift ref hyp f rs hs re he = Ok (re', he') -> rs - 1 <= re -> hs - 1 <= he -> (re < rs \/ nonalt re) ->
  rs - 1 <= re' <= re /\ hs - 1 <= he' <= he /\ (re' < rs \/ nonalt re') /\ (rs < re -> hs < he -> re' + he' < re + he).
Proof.
  induction f as [|f IH]; intros rs hs re he re' he' H BR BH N1; [discriminate|]. cbn [shift] in H. ib H. ib H. destruct (_ <? _).
  - ip H re1 sk1.
    assert (B1 : rs - 1 <= re1 <= re /\ (re1 < rs \/ nonalt re1) /\ (rs < re -> re1 < re)).
    { destruct (Z.ltb_spec rs re); [apply skip_some in E1; [|lia]; intuition lia|injection E1 as <- <-; split; [lia|]; split; [exact N1|lia]]. }
    destruct B1 as (B1 & N2 & L1). destruct sk1.
    + apply IH in H; [|lia|lia|exact N2]. intuition lia.
    + ib H. apply lower_hyp_some in E2; [|lia]. injection H as <- <-. intuition lia.
  - ip H re1 sk1. apply lower_ref_some in E1; [|assumption..]. destruct E1 as (B1 & N2 & _).
    assert (HH : hs - 1 <= (if hs <? he then he - 1 else he) <= he /\ (hs < he -> (if hs <? he then he - 1 else he) < he)) by (destruct (Z.ltb_spec hs he); lia).
    destruct HH as (H1 & H2). destruct sk1.
    + apply IH in H; [|lia|lia|exact N2]. intuition lia.
    + injection H as <- <-. intuition lia.
Qed.
Definition gaps (rc hc re he : Z) : Prop :=
  exists r1 r2 h1 h2, gap ref re rc = Ok (r1, r2) /\ gap hyp he hc = Ok (h1, h2) /\ 0 <= Sil_Model.overlap r1 r2 h1 h2.
Lemma back_some : forall f rs hs rc hc re he re' he', back ref hyp f rs hs rc hc re he = Ok (Some (re', he')) ->
  rs - 1 <= re -> hs - 1 <= he -> (re < rs \/ nonalt re) ->
  rs - 1 <= re' <= re /\ hs - 1 <= he' <= he /\ (re' < rs \/ nonalt re') /\ (rs < re' \/ hs < he') /\ (re' <= rs \/ he' <= hs \/ gaps rc hc re' he').
Proof.
  induction f as [|f IH]; intros rs hs rc hc re he re' he' H BR BH N1; [discriminate|]. cbn [back] in H.
  destruct ((rs <? re) && (hs <? he)) eqn:EL.
  - apply andb_prop in EL. destruct EL as (L1 & L2). apply Z.ltb_lt in L1, L2.
    ip H r1 r2. ip H h1 h2. destruct (Z.ltb_spec (Sil_Model.overlap r1 r2 h1 h2) 0).
    + ip H re1 he1. apply shift_some in E1; [|lia|lia|exact N1]. destruct E1 as (B1 & B2 & N2 & _).
      apply IH in H; [|lia|lia|exact N2]. intuition lia.
    + injection H as <- <-. repeat split; auto; try lia. right; right. exists r1, r2, h1, h2. auto.
  - destruct ((rs <? re) || (hs <? he)) eqn:EO; [|discriminate]. injection H as <- <-.
    apply andb_false_iff in EL. rewrite !Z.ltb_ge in EL. apply orb_prop in EO. rewrite !Z.ltb_lt in EO. repeat split; auto; try lia.
Qed.
(** What a cut is *)
Definition cut_ok (rs hs rc hc rx hx : Z) : Prop :=
  rs - 1 <= rx <= rc /\ hs - 1 <= hx <= hc /\ (rs <= rx \/ hs <= hx)
  /\ ((rx = rc /\ hx = hc) \/ ((rx < rs \/ nonalt rx) /\ (rx <= rs \/ hx <= hs \/ gaps rc hc rx hx))).
Lemma chop_some rs hs rc hc mx rx hx : rs - 1 <= rc -> hs - 1 <= hc -> 0 <= mx -> chop ref hyp rs hs rc hc mx = Ok (Some (rx, hx)) -> cut_ok rs hs rc hc rx hx.
Proof.
  intros BR BH M H. unfold chop in H. destruct ((rc <? rs) && (hc <? hs)) eqn:E0; [discriminate|].
  apply andb_false_iff in E0. rewrite !Z.ltb_ge in E0.
  destruct (_ && _). { injection H as <- <-. unfold cut_ok. repeat split; auto; lia. }
  cbv zeta in H. ip H re sk. apply skip_some in E; [|lia]. destruct E as (B1 & N1 & _).
  ip H re2 he2. apply sync_some in E; [|lia|lia|exact N1]. destruct E as (B2 & B3 & N2).
  apply back_some in H; [|lia|lia|exact N2]. unfold cut_ok. intuition lia.
Qed.
Lemma cut_some : forall f rs hs rc hc mx rx hx, rs - 1 <= rc -> hs - 1 <= hc -> 0 <= mx -> cut ref hyp f rs hs rc hc mx = Ok (rx, hx) -> cut_ok rs hs rc hc rx hx.
Proof.
  induction f as [|f IH]; intros rs hs rc hc mx rx hx BR BH M H; [discriminate|]. cbn [cut] in H. ib H. destruct m as [(a, b)|].
  - injection H as <- <-. eapply chop_some; eassumption.
  - apply IH in H; [exact H|lia..].
Qed.

(** ** That it ends *)
Hypothesis first : forall w, wd ref 1 = Ok w -> alternate w = false.
Lemma wd_some {A} (l : list A) i : 1 <= i <= Z.of_nat (length l) -> exists w, wd l i = Ok w.
Proof.
  intros B. unfold wd. destruct (Z.ltb_spec i 1); [lia|]. destruct (nth_error l (Z.to_nat (i - 1))) eqn:E; [eauto|]. apply nth_error_None in E. lia.
Qed.
Notation rn := (Z.of_nat (length ref)).
Notation hn := (Z.of_nat (length hyp)).
Lemma skip_ends : forall f rs re sk, 1 <= rs -> rs - 1 <= re <= rn -> (re - rs + 1 < Z.of_nat f) ->
  exists re' sk', skip ref f rs re sk = Ok (re', sk') /\ (1 <= re -> 1 <= re') /\ (re < 1 -> sk' = sk).
Proof.
  induction f as [|f IH]; intros rs re sk R B F; [lia|]. cbn [skip]. destruct (Z.leb_spec rs re).
  - destruct (wd_some ref re ltac:(lia)) as (w & E). rewrite E. cbn [rbind]. destruct (alternate w) eqn:EA.
    + assert (1 < re). { destruct (Z.eq_dec re 1) as [->|]; [rewrite (first w E) in EA; discriminate|lia]. }
      destruct (IH rs (re - 1) true R ltac:(lia) ltac:(lia)) as (re' & sk' & -> & K & _). exists re', sk'. split; [reflexivity|]. split; intros; [apply K; lia|lia].
    + exists re, sk. split; [reflexivity|]. split; [auto|lia].
  - exists re, sk. split; [reflexivity|]. split; auto.
Qed.
Lemma lower_ref_ends : forall f rs re he sk, 1 <= rs -> rs - 1 <= re <= rn -> 1 <= he <= hn -> (re - rs + 2 < Z.of_nat f) ->
  exists re' sk', lower_ref ref hyp f rs re he sk = Ok (re', sk') /\ (sk = false -> sk' = true -> 1 <= re').
Proof.
  induction f as [|f IH]; intros rs re he sk R B BH F; [lia|]. cbn [lower_ref]. destruct (negb sk && (rs <=? re)) eqn:E1.
  - apply andb_prop in E1. destruct E1 as (SK & E1). apply Z.leb_le in E1. destruct sk; [discriminate|].
    destruct (wd_some ref re ltac:(lia)) as (r & ->). destruct (wd_some hyp he ltac:(lia)) as (h & ->). cbn [rbind].
    destruct (_ && _); [|exists re, false; split; [reflexivity|discriminate]]. destruct (skip_ends f rs (re - 1) false R ltac:(lia) ltac:(lia)) as (re1 & sk1 & ES & K1 & K2). rewrite ES. cbn [rbind].
    apply skip_some in ES; [|lia]. destruct (IH rs re1 he sk1 R ltac:(lia) BH ltac:(lia)) as (re' & sk' & EL & K). rewrite EL. exists re', sk'. split; [reflexivity|].
    intros _ ->. destruct sk1; [|apply K; reflexivity]. destruct f as [|f]; [discriminate|]. cbn [lower_ref negb andb] in EL. injection EL as <-. apply K1.
    destruct (Z_lt_ge_dec (re - 1) 1); [|lia]. specialize (K2 ltac:(lia)). discriminate.
  - exists re, sk. split; [reflexivity|]. intros -> K. discriminate.
Qed.
Lemma lower_hyp_ends : forall f hs he re, 1 <= hs -> hs - 1 <= he <= hn -> (1 <= re <= rn \/ he < hs) -> (he - hs + 1 < Z.of_nat f) -> exists he', lower_hyp ref hyp f hs he re = Ok he'.
Proof.
  induction f as [|f IH]; intros hs he re R B BR F; [lia|]. cbn [lower_hyp]. destruct (Z.leb_spec hs he); [|eauto].
  destruct (wd_some ref re ltac:(lia)) as (r & ->). destruct (wd_some hyp he ltac:(lia)) as (h & ->). cbn [rbind].
  destruct (_ && _); [|eauto]. apply IH; lia.
Qed.
Lemma rounds_big a b : b - a + 2 < Z.of_nat (rounds a b).
Proof. unfold rounds. lia. Qed.
Lemma sync_ends : forall f rs hs re he, 1 <= rs -> 1 <= hs -> rs - 1 <= re <= rn -> hs - 1 <= he <= hn -> 1 <= re -> 1 <= he -> (re < rs \/ nonalt re) ->
  (re - rs + 1 < Z.of_nat f) -> exists re' he', sync ref hyp f rs hs re he = Ok (re', he').
Proof.
  induction f as [|f IH]; intros rs hs re he R1 H1 BR BH R2 H2 NA F; [lia|]. cbn [sync].
  destruct (wd_some ref re ltac:(lia)) as (r & ->). destruct (wd_some hyp he ltac:(lia)) as (h & ->). cbn [rbind]. destruct (_ <? _).
  - destruct (lower_ref_ends (rounds rs re) rs re he false R1 BR ltac:(lia) (rounds_big _ _)) as (re1 & sk1 & EL & K). rewrite EL. cbn [rbind].
    apply lower_ref_some in EL; [|lia|exact NA]. destruct EL as (B1 & N1 & D). destruct sk1; [|eauto]. specialize (K eq_refl eq_refl). destruct D as [D|D]; [discriminate|]. apply IH; auto; lia.
  - destruct (_ <? _); [|eauto]. pose proof (rounds_big hs he). destruct (lower_hyp_ends (rounds hs he) hs he re H1 BH ltac:(lia) ltac:(lia)) as (he' & ->). cbn [rbind]. eauto.
Qed.
Lemma shift_ends : forall f rs hs re he, 1 <= rs -> 1 <= hs -> rs - 1 <= re <= rn -> hs <= he <= hn -> 1 <= re -> (re < rs \/ nonalt re) ->
  (re - rs + 1 < Z.of_nat f) -> exists re' he', shift ref hyp f rs hs re he = Ok (re', he').
Proof.
  induction f as [|f IH]; intros rs hs re he R1 H1 BR BH R2 NA F; [lia|]. cbn [shift].
  destruct (wd_some ref re ltac:(lia)) as (r & ->). destruct (wd_some hyp he ltac:(lia)) as (h & ->). cbn [rbind]. destruct (_ <? _).
  - pose proof (rounds_big hs he). destruct (Z.ltb_spec rs re).
    + pose proof (rounds_big rs re). destruct (skip_ends (rounds rs re) rs (re - 1) false R1 ltac:(lia) ltac:(lia)) as (re1 & sk1 & EL & K & _). rewrite EL. cbn [rbind].
      specialize (K ltac:(lia)). apply skip_some in EL; [|lia]. destruct EL as (B1 & N1 & D). destruct sk1; [apply IH; auto; lia|].
      destruct (lower_hyp_ends (rounds hs he) hs he re1 H1 ltac:(lia) ltac:(lia) ltac:(lia)) as (he' & ->). cbn [rbind]. eauto.
    + cbn [rbind]. destruct (lower_hyp_ends (rounds hs he) hs he re H1 ltac:(lia) ltac:(lia) ltac:(lia)) as (he' & ->). cbn [rbind]. eauto.
  - cbv zeta. assert (HE : hs <= (if hs <? he then he - 1 else he) <= hn) by (destruct (Z.ltb_spec hs he); lia). revert HE. generalize (if hs <? he then he - 1 else he). intros he1 HE.
    destruct (lower_ref_ends (rounds rs re) rs re he1 false R1 BR ltac:(lia) (rounds_big _ _)) as (re1 & sk1 & EL & K). rewrite EL. cbn [rbind].
    apply lower_ref_some in EL; [|lia|exact NA]. destruct EL as (B1 & N1 & D). destruct sk1; [|eauto]. specialize (K eq_refl eq_refl). destruct D as [D|D]; [discriminate|]. apply IH; auto; lia.
Qed.
Lemma gap_ends (l : list mword) e c : 1 <= e <= c -> c <= Z.of_nat (length l) -> exists p, gap l e c = Ok p.
Proof.
  intros B C. unfold gap. destruct (wd_some l e ltac:(lia)) as (w & ->). cbn [rbind]. destruct (Z.eqb_spec e c); [cbn [rbind]; eauto|].
  destruct (wd_some l (e + 1) ltac:(lia)) as (v & ->). cbn [rbind]. eauto.
Qed.
Lemma back_ends : forall f rs hs rc hc re he, 1 <= rs -> 1 <= hs -> rs - 1 <= re <= rc -> hs - 1 <= he <= hc -> rc <= rn -> hc <= hn -> (re < rs \/ nonalt re) ->
  (re - rs + 1 + (he - hs + 1) < Z.of_nat f) -> exists o, back ref hyp f rs hs rc hc re he = Ok o.
Proof.
  induction f as [|f IH]; intros rs hs rc hc re he R1 H1 BR BH LR LH NA F; [lia|]. cbn [back]. destruct ((rs <? re) && (hs <? he)) eqn:EL.
  - apply andb_prop in EL. destruct EL as (L1 & L2). apply Z.ltb_lt in L1, L2.
    destruct (gap_ends ref re rc ltac:(lia) LR) as ((r1, r2) & ->). destruct (gap_ends hyp he hc ltac:(lia) LH) as ((h1, h2) & ->). cbn [rbind].
    destruct (_ <? 0); [|eauto]. pose proof (rounds_big rs re).
    destruct (shift_ends (rounds rs re) rs hs re he R1 H1 ltac:(lia) ltac:(lia) ltac:(lia) NA ltac:(lia)) as (re1 & he1 & ES). rewrite ES. cbn [rbind].
    apply shift_some in ES; [|lia|lia|exact NA]. destruct ES as (B1 & B2 & N2 & D). specialize (D L1 L2). apply IH; auto; lia.
  - destruct (_ || _); eauto.
Qed.
Lemma chop_ends rs hs rc hc mx : 1 <= rs <= rc + 1 -> 1 <= hs <= hc + 1 -> 1 <= rc <= rn -> 1 <= hc <= hn -> 0 <= mx -> exists o, chop ref hyp rs hs rc hc mx = Ok o.
Proof.
  intros BR BH LR LH M. unfold chop. destruct (_ && _); [eauto|]. destruct (_ && _); [eauto|]. cbv zeta.
  pose proof (rounds_big rs (Z.min (rs + mx) rc)).
  destruct (skip_ends (rounds rs (Z.min (rs + mx) rc)) rs (Z.min (rs + mx) rc) false ltac:(lia) ltac:(lia) ltac:(lia)) as (re & sk & ES & K & _). rewrite ES. cbn [rbind].
  specialize (K ltac:(lia)). apply skip_some in ES; [|lia]. destruct ES as (B1 & N1 & _). pose proof (rounds_big rs re).
  destruct (sync_ends (rounds rs re) rs hs re (Z.min (hs + mx) hc)) as (re2 & he2 & EY); [lia..|exact N1|lia|]. rewrite EY. cbn [rbind].
  apply sync_some in EY; [|lia|lia|exact N1]. destruct EY as (B2 & B3 & N2). pose proof (rounds_big rs re2). pose proof (rounds_big hs he2).
  apply back_ends; auto; lia.
Qed.
Lemma cut_ends : forall f rs hs rc hc mx, 1 <= rs <= rc + 1 -> 1 <= hs <= hc + 1 -> 1 <= rc <= rn -> 1 <= hc <= hn -> (rs <= rc \/ hs <= hc) -> 0 < mx ->
  (rc - rs - mx + 1 < Z.of_nat f) -> (hc - hs - mx + 1 < Z.of_nat f) -> (0 < f)%nat -> exists rx hx, cut ref hyp f rs hs rc hc mx = Ok (rx, hx).
Proof.
  induction f as [|f IH]; intros rs hs rc hc mx BR BH LR LH NE M F1 F2 F0; [lia|]. cbn [cut].
  destruct (chop_ends rs hs rc hc mx BR BH LR LH ltac:(lia)) as (o & E). rewrite E. cbn [rbind]. destruct o as [(a, b)|]; [eauto|].
  assert (mx <= rc - rs \/ mx <= hc - hs).
  { unfold chop in E. destruct ((rc <? rs) && (hc <? hs)) eqn:E0; [apply andb_prop in E0; rewrite !Z.ltb_lt in E0; lia|].
    destruct ((rc - rs <? mx) && (hc - hs <? mx)) eqn:E1; [discriminate|]. apply andb_false_iff in E1. rewrite !Z.ltb_ge in E1. lia. }
  apply IH; try lia.
Qed.
End Cut.
