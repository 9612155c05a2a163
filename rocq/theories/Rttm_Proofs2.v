(** Proofs about the expansion of alternations. *)
From Coq Require Import String List NArith ZArith Arith Bool Ascii Lia.
From Verif Require Import Base Store_Model Segm_Model Graph_Model Links_Model Links_Spec Links_Proofs Token_Model Alt_Model Alt_Spec Alt_Proofs Alt_Proofs2 AsTrn_Model AsStm_Model Rttm_Model Rttm_Spec Rttm_Proofs1.
Import ListNotations.
Local Open Scope res_scope.
Local Notation length := List.length.

(** ** Replacing one token *)
(** Texts along a path, where a token may stand for several texts *)
Definition says_via (R : nat -> list string -> Prop) (h : links) (F L : nat -> Prop) (w : list string) : Prop :=
  exists a l parts, F a /\ walk h a l /\ L (last l a) /\ Forall2 R (a :: l) parts /\ w = concat parts.
Lemma last_cons {A} (b a : A) l : last (b :: l) a = last l b.
Proof. revert b a. induction l as [|c l IH]; intros b a; [reflexivity|]. change (last (b :: c :: l) a) with (last (c :: l) a). rewrite IH. symmetry. apply IH. Qed.
Lemma walk_app h : forall l a b l2, walk h a l -> edge h (last l a) b -> walk h b l2 -> walk h a (l ++ b :: l2).
Proof.
  induction l as [|c l IH]; intros a b l2 W E W2; [exact (conj E W2)|]. cbn [app walk] in *. destruct W as (W1 & W). split; [exact W1|]. apply IH; [exact W| |exact W2]. rewrite last_cons in E. exact E.
Qed.
Lemma last_app_cons {A} (l : list A) b l2 a : last (l ++ b :: l2) a = last l2 b.
Proof. revert a. induction l as [|c l IH]; intros a; [apply last_cons|]. cbn [app]. rewrite last_cons. apply IH. Qed.

Section Replace.
Variables (h h' : links) (n t : nat) (S E : list nat) (R : nat -> list string -> Prop) (F L : nat -> Prop).
Hypotheses (TN : t < n) (SN : forall x, In x S -> n <= x) (EN : forall x, In x E -> n <= x)
  (HE : forall x y, edge h x y -> (x < n /\ y < n) \/ (n <= x /\ n <= y)) (NT : ~ edge h t t)
  (HX : forall x y, edge h' x y <-> x <> t /\ y <> t /\ (edge h x y \/ (edge h x t /\ In y S) \/ (In x E /\ edge h t y)))
  (FN : forall x, F x -> x < n) (LN : forall x, L x -> x < n)
  (RT : forall u, R t u <-> exists a l ps, In a S /\ walk h a l /\ In (last l a) E /\ Forall2 R (a :: l) ps /\ u = concat ps).
Definition swap (P : nat -> Prop) (new : list nat) (x : nat) : Prop := x <> t /\ (P x \/ (P t /\ In x new)).
Lemma sub_walk : forall l a, n <= a -> walk h a l -> walk h' a l /\ n <= last l a.
Proof.
  induction l as [|b l IH]; intros a Ha W; [split; [exact I|exact Ha]|]. destruct W as (W1 & W). rewrite last_cons. destruct (HE a b W1) as [(K & _)|(_ & Hb)]; [lia|]. destruct (IH b Hb W) as (W' & HL). split; [|exact HL].
  split; [|exact W']. apply HX. split; [lia|]. split; [lia|]. left. exact W1.
Qed.
Lemma forth : forall l a parts, a < n -> walk h a l -> L (last l a) -> Forall2 R (a :: l) parts ->
  (a <> t -> exists l' parts', walk h' a l' /\ swap L E (last l' a) /\ Forall2 R (a :: l') parts' /\ concat parts = concat parts')
  /\ (a = t -> exists s l' parts', In s S /\ walk h' s l' /\ swap L E (last l' s) /\ Forall2 R (s :: l') parts' /\ concat parts = concat parts').
Proof.
  induction l as [|b l IH]; intros a parts Ha W HL FR.
  - split; intros AT.
    + exists [], parts. split; [exact I|]. split; [split; [exact AT|left; exact HL]|]. auto.
    + subst a. inversion FR as [|? p ? ps RP F2]; subst. inversion F2; subst. apply RT in RP. destruct RP as (s & ls & qs & IS & WS & LE & FQ & ->).
      exists s, ls, qs. split; [exact IS|]. destruct (sub_walk ls s (SN s IS) WS) as (W' & HN). split; [exact W'|]. split; [split; [lia|right; split; [exact HL|exact LE]]|]. split; [exact FQ|]. cbn [concat]. rewrite app_nil_r. reflexivity.
  - destruct W as (W1 & W). rewrite last_cons in HL. inversion FR as [|? p ? ps RP F2]; subst. destruct (HE a b W1) as [(_ & Hb)|(K & _)]; [|lia]. destruct (IH b ps Hb W HL F2) as (IH1 & IH2). split; intros AT.
    + destruct (Nat.eq_dec b t) as [->|BT].
      * destruct (IH2 eq_refl) as (s & l' & qs & IS & W' & L' & FQ & EQ). exists (s :: l'), (p :: qs). split; [split; [|exact W']|].
        { apply HX. split; [exact AT|]. split; [specialize (SN s IS); lia|]. right. left. auto. }
        split; [rewrite last_cons; exact L'|]. split; [constructor; assumption|]. cbn [concat]. rewrite EQ. reflexivity.
      * destruct (IH1 BT) as (l' & qs & W' & L' & FQ & EQ). exists (b :: l'), (p :: qs). split; [split; [|exact W']|].
        { apply HX. auto. }
        split; [rewrite last_cons; exact L'|]. split; [constructor; assumption|]. cbn [concat]. rewrite EQ. reflexivity.
    + subst a. assert (BT : b <> t) by (intros ->; exact (NT W1)). destruct (IH1 BT) as (l' & qs & W' & L' & FQ & EQ).
      apply RT in RP. destruct RP as (s & ls & rs & IS & WS & LE & FS & ->). destruct (sub_walk ls s (SN s IS) WS) as (WS' & HN).
      exists s, (ls ++ b :: l'), (rs ++ qs). split; [exact IS|]. split; [apply walk_app; [exact WS'| |exact W']|].
      { apply HX. split; [lia|]. split; [exact BT|]. right. right. auto. }
      split; [rewrite last_app_cons; exact L'|]. split; [change (s :: ls ++ b :: l') with ((s :: ls) ++ b :: l'); apply Forall2_app; assumption|]. cbn [concat]. rewrite concat_app, EQ. reflexivity.
Qed.
Lemma back : forall l a parts, walk h' a l -> swap L E (last l a) -> Forall2 R (a :: l) parts ->
  (a < n -> a <> t -> exists l' parts', walk h a l' /\ L (last l' a) /\ Forall2 R (a :: l') parts' /\ concat parts = concat parts')
  /\ (n <= a -> exists ls us l0 ps, walk h a ls /\ In (last ls a) E /\ Forall2 R (a :: ls) us /\ walk h t l0 /\ L (last l0 t) /\ Forall2 R l0 ps /\ concat parts = concat us ++ concat ps).
Proof.
  induction l as [|b l IH]; intros a parts W HL FR.
  - destruct HL as (AT & HL). split; intros Ha.
    + intros _. exists [], parts. split; [exact I|]. split; [|auto]. destruct HL as [HL|(_ & K)]; [exact HL|]. specialize (EN _ K). cbn in EN. lia.
    + destruct HL as [HL|(LT & IE)]; [specialize (LN _ HL); cbn in LN; lia|]. exists [], parts, [], []. split; [exact I|]. split; [exact IE|]. split; [exact FR|]. split; [exact I|]. split; [exact LT|]. split; [constructor|]. cbn [concat]. rewrite app_nil_r. reflexivity.
  - destruct W as (W1 & W). rewrite last_cons in HL. inversion FR as [|? p ? ps RP F2]; subst. destruct (IH b ps W HL F2) as (IH1 & IH2). apply HX in W1. destruct W1 as (AT & BT & W1). split; intros Ha.
    + intros _. destruct W1 as [W1|[(W1 & IS)|(IE & _)]]; [| |specialize (EN _ IE); lia].
      * destruct (HE a b W1) as [(_ & Hb)|(K & _)]; [|lia]. destruct (IH1 Hb BT) as (l' & qs & W' & L' & FQ & EQ). exists (b :: l'), (p :: qs). split; [exact (conj W1 W')|]. rewrite last_cons. split; [exact L'|]. split; [constructor; assumption|]. cbn [concat]. rewrite EQ. reflexivity.
      * destruct (IH2 (SN _ IS)) as (ls & us & l0 & rs & WL & IE & FU & W0 & L0 & FR0 & EQ). exists (t :: l0), (p :: concat us :: rs). split; [exact (conj W1 W0)|]. rewrite last_cons. split; [exact L0|]. split; [|cbn [concat]; rewrite EQ; reflexivity].
        constructor; [exact RP|]. constructor; [|exact FR0]. apply RT. exists b, ls, us. auto.
    + destruct W1 as [W1|[(W1 & _)|(IE & W1)]]; [|destruct (HE a t W1); lia|].
      * destruct (HE a b W1) as [(K & _)|(_ & Hb)]; [lia|]. destruct (IH2 Hb) as (ls & us & l0 & rs & WL & IE & FU & W0 & L0 & FR0 & EQ). exists (b :: ls), (p :: us), l0, rs. split; [exact (conj W1 WL)|]. rewrite last_cons. split; [exact IE|]. split; [constructor; assumption|]. split; [exact W0|]. split; [exact L0|]. split; [exact FR0|]. cbn [concat]. rewrite EQ, app_assoc. reflexivity.
      * destruct (HE t b W1) as [(_ & Hb)|(K & _)]; [|lia]. destruct (IH1 Hb BT) as (l' & qs & W' & L' & FQ & EQ). exists [], [p], (b :: l'), qs. split; [exact I|]. split; [exact IE|]. split; [constructor; [exact RP|constructor]|]. split; [exact (conj W1 W')|]. rewrite last_cons. split; [exact L'|]. split; [exact FQ|]. cbn [concat]. rewrite EQ, app_nil_r. reflexivity.
Qed.
Lemma replaced : forall w, says_via R h F L w <-> says_via R h' (swap F S) (swap L E) w.
Proof.
  intros w. split.
  - intros (a & l & parts & FA & W & LA & FR & ->). destruct (forth l a parts (FN _ FA) W LA FR) as (A & B). destruct (Nat.eq_dec a t) as [->|AT].
    + destruct (B eq_refl) as (s & l' & qs & IS & W' & L' & FQ & EQ). exists s, l', qs. split; [split; [specialize (SN _ IS); lia|right; auto]|auto].
    + destruct (A AT) as (l' & qs & W' & L' & FQ & EQ). exists a, l', qs. split; [split; [exact AT|left; exact FA]|auto].
  - intros (a & l & parts & (AT & FA) & W & LA & FR & ->). destruct (back l a parts W LA FR) as (A & B). destruct FA as [FA|(FT & IS)].
    + destruct (A (FN _ FA) AT) as (l' & qs & W' & L' & FQ & EQ). exists a, l', qs. auto.
    + destruct (B (SN _ IS)) as (ls & us & l0 & rs & WL & IE & FU & W0 & L0 & FR0 & EQ). exists t, l0, (concat us :: rs). split; [exact FT|]. split; [exact W0|]. split; [exact L0|]. split; [constructor; [apply RT; exists a, ls, us; auto|exact FR0]|exact EQ].
Qed.
End Replace.

(** Only the new first and last tokens need fit the segment. *)
Lemma replace_fits tm h s t starts ends : mutual h ->
  (In t (sg_first s) -> forall x, In x starts -> fits_begin tm s x) -> (In t (sg_last s) -> forall x, In x ends -> fits_end tm s x) ->
  ~ In t starts -> ~ In t ends -> ~ edge h t t -> NoDup (sg_first s) -> NoDup (sg_last s) ->
  (forall x, In x starts -> ~ In x (sg_first s)) -> (forall x, In x ends -> ~ In x (sg_last s)) -> NoDup starts -> NoDup ends ->
  exists h' s', replace_token tm h s t starts ends = Ok (h', s') /\ mutual h' /\
    (forall x y, edge h' x y <-> x <> t /\ y <> t /\ (edge h x y \/ (edge h x t /\ In y starts) \/ (In x ends /\ edge h t y))) /\
    (forall x, In x (sg_first s') <-> x <> t /\ (In x (sg_first s) \/ (In t (sg_first s) /\ In x starts))) /\
    (forall x, In x (sg_last s') <-> x <> t /\ (In x (sg_last s) \/ (In t (sg_last s) /\ In x ends))) /\
    NoDup (sg_first s') /\ NoDup (sg_last s') /\ sg_begin s' = sg_begin s /\ sg_end s' = sg_end s.
Proof.
  intros M HB HEnd NS NE TT N1 N2 DS DE NDS NDE.
  destruct (link_part_spec h t starts ends M) as (h' & EL & ML & L2 & L3 & L4).
  assert (ND : forall l r : list nat, NoDup l -> NoDup r -> (forall x, In x r -> ~ In x l) -> NoDup (l ++ r)).
  { clear. induction l as [|a l IH]; intros r H K D; [exact K|]. cbn [app]. inversion H as [|? ? NI H']; subst. constructor; [|apply IH; [exact H'|exact K|intros x Hx C; apply (D x Hx); right; exact C]]. intros C. apply in_app_iff in C. destruct C as [C|C]; [exact (NI C)|]. apply (D a C). left. reflexivity. }
  assert (ERS : forall l r : list nat, NoDup (l ++ r) -> In t l -> ~ In t r -> exists l', erase t (l ++ r) = Some l' /\ NoDup l' /\ forall x, In x l' <-> x <> t /\ (In x l \/ In x r)).
  { intros l r Hn Hl Hr. destruct (erase_some t (l ++ r)) as (l' & EE); [apply in_app_iff; auto|]. destruct (erase_in t _ _ EE Hn) as (A & B). exists l'. split; [exact EE|]. split; [exact A|]. intros x. rewrite B, in_app_iff. tauto. }
  assert (SP : exists s', seg_part tm s t starts ends = Ok s' /\
    (forall x, In x (sg_first s') <-> x <> t /\ (In x (sg_first s) \/ (In t (sg_first s) /\ In x starts))) /\
    (forall x, In x (sg_last s') <-> x <> t /\ (In x (sg_last s) \/ (In t (sg_last s) /\ In x ends))) /\
    NoDup (sg_first s') /\ NoDup (sg_last s') /\ sg_begin s' = sg_begin s /\ sg_end s' = sg_end s).
  { unfold seg_part, is_first_token, is_last_token. destruct (mem t (sg_first s)) eqn:MF.
    - apply mem_In in MF. rewrite (add_all_first_spec tm starts s (HB MF)). cbn [rbind sg_last].
      destruct (ERS (sg_first s) starts (ND _ _ N1 NDS DS) MF NS) as (lf & EF & NF & IF).
      destruct (mem t (sg_last s)) eqn:ML2.
      + assert (IL := proj1 (mem_In _ _) ML2). rewrite add_all_last_spec by (intros x Hx; apply (HEnd IL x Hx)). cbn [rbind sg_first sg_last].
        rewrite (proj2 (mem_In t (sg_first s ++ starts))) by (apply in_app_iff; auto). rewrite EF. cbn [rbind sg_last with_first].
        rewrite (proj2 (mem_In t (sg_last s ++ ends))) by (apply in_app_iff; auto).
        destruct (ERS (sg_last s) ends (ND _ _ N2 NDE DE) IL NE) as (ll & EL2 & NL & ILL). rewrite EL2. eexists. split; [reflexivity|]. cbn [with_last with_first sg_first sg_last sg_begin sg_end].
        split; [intros x; rewrite IF; tauto|]. split; [intros x; rewrite ILL; tauto|]. auto.
      + assert (IL : ~ In t (sg_last s)) by (rewrite <- mem_In; congruence). cbn [rbind sg_first sg_last].
        rewrite (proj2 (mem_In t (sg_first s ++ starts))) by (apply in_app_iff; auto). rewrite EF. cbn [rbind sg_last with_first]. rewrite ML2. eexists. split; [reflexivity|]. cbn [with_last with_first sg_first sg_last sg_begin sg_end].
        split; [intros x; rewrite IF; tauto|]. split; [|auto]. intros x. split; [intros H; split; [intros ->; exact (IL H)|left; exact H]|intros (_ & [H|(H & _)]); [exact H|destruct (IL H)]].
    - assert (IF : ~ In t (sg_first s)) by (rewrite <- mem_In; congruence). cbn [rbind].
      assert (FF : forall x, In x (sg_first s) <-> x <> t /\ (In x (sg_first s) \/ In t (sg_first s) /\ In x starts)).
      { intros x. split; [intros H; split; [intros ->; exact (IF H)|left; exact H]|intros (_ & [H|(H & _)]); [exact H|destruct (IF H)]]. }
      destruct (mem t (sg_last s)) eqn:ML2.
      + assert (IL := proj1 (mem_In _ _) ML2). rewrite add_all_last_spec by (intros x Hx; apply (HEnd IL x Hx)). cbn [rbind sg_first sg_last]. rewrite MF. cbn [rbind sg_last].
        rewrite (proj2 (mem_In t (sg_last s ++ ends))) by (apply in_app_iff; auto).
        destruct (ERS (sg_last s) ends (ND _ _ N2 NDE DE) IL NE) as (ll & EL2 & NL & ILL). rewrite EL2. eexists. split; [reflexivity|]. cbn [with_last with_first sg_first sg_last sg_begin sg_end].
        split; [exact FF|]. split; [intros x; rewrite ILL; tauto|]. auto.
      + assert (IL : ~ In t (sg_last s)) by (rewrite <- mem_In; congruence). cbn [rbind]. rewrite MF. cbn [rbind]. rewrite ML2. eexists. split; [reflexivity|]. split; [exact FF|]. split; [|auto].
        intros x. split; [intros H; split; [intros ->; exact (IL H)|left; exact H]|intros (_ & [H|(H & _)]); [exact H|destruct (IL H)]]. }
  destruct SP as (s' & ES & SP). exists h', s'. rewrite replace_split, ES. cbn [rbind]. rewrite EL. cbn [rbind]. split; [reflexivity|]. split; [exact ML|]. split; [exact (L4 NS NE TT)|exact SP].
Qed.
