From Coq Require Import List ZArith NArith Arith Bool Lia Permutation Sorted.
From Verif Require Import Base Store_Model Store_Proofs Segm_Model Segm_Spec Segm_Proofs Segm_Thm Uem_Model Uem_Spec Uem_Proofs Uem_Proofs2.
Import ListNotations.
Local Open Scope Z_scope.

Lemma inb_true : forall t i, inb t i = true <-> within t (fst i) (snd i).
Proof. intros t i. unfold inb, within. rewrite andb_true_iff, Z.leb_le, Z.ltb_lt. reflexivity. Qed.

Lemma in_pairs : forall l b e, In (b, e) (pairs_of l) -> In b l /\ In e l.
Proof.
  assert (G : forall n l b e, (length l <= n)%nat -> In (b, e) (pairs_of l) -> In b l /\ In e l).
  { induction n as [|n IH]; intros l b e L I.
    - destruct l; [destruct I|cbn [length] in L; lia].
    - destruct l as [|x [|y l]]; [destruct I|destruct I|]. cbn [pairs_of] in I. destruct I as [I|I].
      + injection I as -> ->. split; [left; reflexivity|right; left; reflexivity].
      + apply IH in I; [|cbn [length] in L; lia]. destruct I. split; right; right; assumption. }
  intros l b e. apply (G (length l)). lia.
Qed.
Lemma pairs_sorted : forall l, StronglySorted Z.le l ->
  Forall (fun p => fst p <= snd p) (pairs_of l) /\ ForallOrdPairs (fun p q => snd p <= fst q) (pairs_of l).
Proof.
  assert (G : forall n l, (length l <= n)%nat -> StronglySorted Z.le l ->
    Forall (fun p => fst p <= snd p) (pairs_of l) /\ ForallOrdPairs (fun p q => snd p <= fst q) (pairs_of l)).
  { induction n as [|n IH]; intros l L S.
    - destruct l; [split; constructor|cbn [length] in L; lia].
    - destruct l as [|x [|y l]]; [split; constructor|split; constructor|]. cbn [pairs_of].
      inversion S as [|? ? S1 F1]; subst. inversion S1 as [|? ? S2 F2]; subst. inversion F1; subst.
      destruct (IH l) as [A B]; [cbn [length] in L; lia|exact S2|].
      split; constructor; cbn [fst snd]; try assumption.
      apply Forall_forall. intros [b e] I. cbn [fst snd]. apply in_pairs in I as [I _]. rewrite Forall_forall in F2. apply F2. exact I. }
  intros l. apply (G (length l)). lia.
Qed.

Definition sorted_pairs (b l : list Z) : list (Z * Z) := filter (real b) (pairs_of (zsort l)).
Lemma sorted_pairs_lt : forall b l p, In p (sorted_pairs b l) -> fst p < snd p.
Proof.
  intros b l p I. apply filter_In in I as [I R]. destruct (pairs_sorted _ (zsort_sorted l)) as [F _].
  rewrite Forall_forall in F. specialize (F p I). unfold real in R. apply andb_prop in R as [_ R].
  apply negb_true_iff in R. apply Z.eqb_neq in R. lia.
Qed.
Lemma sorted_pairs_apart : forall b l p q, In p (sorted_pairs b l) -> In q (sorted_pairs b l) ->
  p = q \/ snd p <= fst q \/ snd q <= fst p.
Proof.
  intros b l p q I J. apply filter_In in I as [I _]. apply filter_In in J as [J _].
  destruct (pairs_sorted _ (zsort_sorted l)) as [_ O]. destruct (ForallOrdPairs_In O _ _ I J) as [E|[E|E]]; auto.
Qed.

Lemma even_zsort : forall l, Nat.even (length l) = true -> Nat.even (length (zsort l)) = true.
Proof. intros l. rewrite (Permutation_length (zsort_perm l)). auto. Qed.
Lemma par_zsort : forall t l, Nat.even (length l) = true -> par t l = existsb (inb t) (pairs_of (zsort l)).
Proof.
  intros t l E. rewrite <- par_pairs; [|apply even_zsort; exact E|apply zsort_sorted]. apply par_perm. symmetry. apply zsort_perm.
Qed.

Lemma gaps_place : forall b l (A G : Z -> bool), Nat.even (length l) = true ->
  (forall t, par t l = xorb (A t) (G t)) -> (forall t, G t = true -> A t = true) -> (forall x, In x b -> G x = true) ->
  forall t, (exists p, In p (sorted_pairs b l) /\ within t (fst p) (snd p)) <-> A t = true /\ G t = false.
Proof.
  intros b l A G EV P AG BG t. split.
  - intros (p & I & W). apply filter_In in I as [I _].
    assert (X : par t l = true). { rewrite par_zsort by exact EV. apply existsb_exists. exists p. split; [exact I|]. apply inb_true. exact W. }
    rewrite P in X. specialize (AG t). destruct (A t), (G t); cbn in X; try discriminate; [split; reflexivity|].
    specialize (AG eq_refl). discriminate.
  - intros [A1 G1]. assert (X : par t l = true) by (rewrite P, A1, G1; reflexivity).
    rewrite par_zsort in X by exact EV. apply existsb_exists in X as (p & I & W). apply inb_true in W.
    exists p. split; [|exact W]. apply filter_In. split; [exact I|]. unfold real.
    destruct (existsb (Z.eqb (fst p)) b) eqn:E; cbn [negb andb].
    + exfalso. apply existsb_exists in E as (x & J & Q). apply Z.eqb_eq in Q. subst x.
      assert (X : par (fst p) l = true).
      { rewrite par_zsort by exact EV. apply existsb_exists. exists p. split; [exact I|]. apply inb_true. unfold within in *. lia. }
      specialize (BG _ J). rewrite P, BG in X. rewrite (AG _ BG) in X. discriminate.
    + apply negb_true_iff. apply Z.eqb_neq. unfold within in W. lia.
Qed.

Lemma gaps_none : forall b l (G : Z -> bool), Nat.even (length l) = true ->
  (forall t, par t l = G t) -> (forall x, In x l -> G x = true -> In x b) -> sorted_pairs b l = [].
Proof.
  intros b l G EV P B. unfold sorted_pairs.
  assert (F : forall p, In p (filter (real b) (pairs_of (zsort l))) -> False).
  { intros p I. pose proof (sorted_pairs_lt b l p I) as L. apply filter_In in I as [I R]. unfold real in R. apply andb_prop in R as [R _].
    apply negb_true_iff in R. assert (X : par (fst p) l = true).
    { rewrite par_zsort by exact EV. apply existsb_exists. exists p. split; [exact I|]. apply inb_true. unfold within. lia. }
    rewrite P in X. assert (J : In (fst p) l).
    { destruct p as [x y]. apply in_pairs in I as [I _]. apply (Permutation_in _ (zsort_perm l)). exact I. }
    specialize (B _ J X). apply Bool.not_true_iff_false in R. apply R. apply existsb_exists. exists (fst p). split; [exact B|apply Z.eqb_refl]. }
  destruct (filter (real b) (pairs_of (zsort l))) as [|p r]; [reflexivity|]. exfalso. apply (F p). left. reflexivity.
Qed.

(** * Groups of a place *)
Lemma at_pl_spec : forall f c g, at_pl f c g = true <-> gp_src g = f /\ gp_ch g = c.
Proof. intros f c g. unfold at_pl. rewrite andb_true_iff, !str_eqb_spec. reflexivity. Qed.

Lemma ordpairs_filter : forall A (R : A -> A -> Prop) p l, ForallOrdPairs R l -> ForallOrdPairs R (filter p l).
Proof.
  intros A R p l H. induction H as [|x l F H IH]; cbn [filter]; [constructor|]. destruct (p x); [|exact IH].
  constructor; [|exact IH]. apply Forall_forall. intros y I. apply filter_In in I as [I _]. rewrite Forall_forall in F. apply F. exact I.
Qed.
Lemma ordpairs_map : forall A B (h : A -> B) (R : B -> B -> Prop) l, ForallOrdPairs (fun x y => R (h x) (h y)) l -> ForallOrdPairs R (map h l).
Proof.
  intros A B h R l H. induction H as [|x l F H IH]; cbn [map]; constructor; [|exact IH].
  apply Forall_forall. intros y I. apply in_map_iff in I as (z & <- & I). rewrite Forall_forall in F. apply F. exact I.
Qed.
Lemma ordpairs_impl_in : forall A (R Q : A -> A -> Prop) l, (forall x y, In x l -> In y l -> R x y -> Q x y) -> ForallOrdPairs R l -> ForallOrdPairs Q l.
Proof.
  intros A R Q l I H. induction H as [|x l F H IH]; constructor.
  - apply Forall_forall. intros y J. rewrite Forall_forall in F. apply I; [left; reflexivity|right; exact J|apply F; exact J].
  - apply IH. intros; apply I; [right; assumption|right; assumption|assumption].
Qed.

Section Place.
  Variable refs : list speech.
  Variable gs : list group.
  Hypothesis OK : set_ok refs.
  Hypothesis PE : Permutation (concat (map group_segs gs)) (concat refs).
  Hypothesis GO : Forall group_ok gs.
  Hypothesis IO : ForallOrdPairs in_order gs.

  Lemma seg_in_ok : forall s, In s (concat refs) -> seg_ok s.
  Proof.
    intros s I. apply in_concat in I as (sp & J & I). unfold set_ok in OK. rewrite Forall_forall in OK.
    destruct (OK sp J) as [F _]. rewrite Forall_forall in F. apply F. exact I.
  Qed.
  Lemma group_seg_in : forall g s, In g gs -> In s (group_segs g) -> In s (concat refs).
  Proof. intros g s I J. apply (Permutation_in _ PE). apply in_concat. exists (group_segs g). split; [apply in_map; exact I|exact J]. Qed.
  Lemma scans : Forall (fun g => scan_group g = (gp_from g, gp_to g, gp_src g, gp_ch g)) gs.
  Proof.
    apply Forall_forall. intros g I. apply scan_group_ok; [rewrite Forall_forall in GO; apply GO; exact I|].
    apply Forall_forall. intros s J. apply seg_in_ok. eapply group_seg_in; eassumption.
  Qed.
  Lemma group_pos : forall g, In g gs -> gp_from g < gp_to g.
  Proof.
    intros g I. rewrite Forall_forall in GO. destruct (GO g I) as (F & (s & J & E) & _). rewrite Forall_forall in F.
    destruct (F s J) as (_ & _ & A & B). destruct (seg_in_ok s (group_seg_in g s I J)) as [C _]. lia.
  Qed.

  Variables f c : str.
  Let L := filter (at_pl f c) gs.
  Let G t := existsb (inb t) (map span L).

  Lemma L_in : forall g, In g L <-> In g gs /\ gp_src g = f /\ gp_ch g = c.
  Proof. intro g. unfold L. rewrite filter_In, at_pl_spec. reflexivity. Qed.

  Lemma spans_ok : Forall (fun i => fst i < snd i) (map span L) /\ ForallOrdPairs disj (map span L).
  Proof.
    split.
    - apply Forall_forall. intros i I. apply in_map_iff in I as (g & <- & I). apply L_in in I as [I _]. apply group_pos. exact I.
    - apply ordpairs_map. eapply ordpairs_impl_in; [|apply ordpairs_filter; exact IO].
      intros x y I J R. apply L_in in I as (_ & A & B). apply L_in in J as (_ & C & D). left. cbn [span fst snd]. apply R; congruence.
  Qed.

  Lemma G_ref : forall t, G t = true <-> exists s, ref_at refs f c s /\ within t (r_start s) (r_end s).
  Proof.
    intro t. unfold G. rewrite existsb_exists. split.
    - intros (i & I & W). apply in_map_iff in I as (g & <- & I). apply inb_true in W. cbn [span fst snd] in W.
      apply L_in in I as (I & A & B). pose proof GO as GO'. rewrite Forall_forall in GO'. destruct (GO' g I) as (F & (s1 & J1 & E1) & _ & C).
      rewrite Forall_forall in F.
      assert (X : exists s, In s (group_segs g) /\ r_start s <= t < r_end s).
      { unfold within in W. destruct (Z.eq_dec t (gp_from g)) as [Q|Q].
        - exists s1. split; [exact J1|]. destruct (seg_in_ok s1 (group_seg_in g s1 I J1)) as [S _]. lia.
        - destruct (C t) as (s & J & S); [lia|]. exists s. split; [exact J|]. lia. }
      destruct X as (s & J & S). exists s. split; [|exact S]. destruct (F s J) as (P1 & P2 & _).
      split; [eapply group_seg_in; eassumption|]. split; congruence.
    - intros (s & (I & A & B) & W). apply (Permutation_in _ (Permutation_sym PE)) in I. apply in_concat in I as (l & J & I).
      apply in_map_iff in J as (g & <- & J). pose proof GO as GO'. rewrite Forall_forall in GO'. destruct (GO' g J) as (F & _). rewrite Forall_forall in F.
      destruct (F s I) as (P1 & P2 & P3 & P4). exists (span g). split.
      + apply in_map. apply L_in. split; [exact J|]. split; congruence.
      + apply inb_true. cbn [span fst snd]. unfold within in *. lia.
  Qed.
  Lemma L_ref : L <> [] <-> exists s, ref_at refs f c s.
  Proof.
    split.
    - intro N. destruct L as [|g r] eqn:E; [contradiction|]. assert (I : In g L) by (rewrite E; left; reflexivity).
      apply L_in in I as (I & A & B). pose proof GO as GO'. rewrite Forall_forall in GO'. destruct (GO' g I) as (F & (s & J & _) & _).
      rewrite Forall_forall in F. destruct (F s J) as (P1 & P2 & _). exists s. split; [eapply group_seg_in; eassumption|]. split; congruence.
    - intros (s & I & A & B) N. apply (Permutation_in _ (Permutation_sym PE)) in I. apply in_concat in I as (l & J & I).
      apply in_map_iff in J as (g & <- & J). pose proof GO as GO'. rewrite Forall_forall in GO'. destruct (GO' g J) as (F & _). rewrite Forall_forall in F.
      destruct (F s I) as (P1 & P2 & _). assert (X : In g L) by (apply L_in; split; [exact J|]; split; congruence). rewrite N in X. destruct X.
  Qed.
  Lemma from_in_G : forall x, In x (map gp_from L) -> G x = true.
  Proof.
    intros x I. apply in_map_iff in I as (g & <- & I). unfold G. apply existsb_exists. exists (span g). split; [apply in_map; exact I|].
    apply inb_true. apply L_in in I as [I _]. pose proof (group_pos g I). unfold within. cbn [span fst snd]. lia.
  Qed.
  (** Smallest start and largest end of the references of the place. *)
  Lemma min_from : forall v, is_min v (map gp_from L) ->
    (exists s, ref_at refs f c s /\ r_start s = v) /\ (forall s, ref_at refs f c s -> v <= r_start s).
  Proof.
    intros v [I F]. rewrite Forall_forall in F. split.
    - apply in_map_iff in I as (g & <- & I). apply L_in in I as (I & A & B). pose proof GO as GO'. rewrite Forall_forall in GO'.
      destruct (GO' g I) as (H & (s & J & E) & _). rewrite Forall_forall in H. destruct (H s J) as (P1 & P2 & _).
      exists s. split; [|exact E]. split; [eapply group_seg_in; eassumption|]. split; congruence.
    - intros s (J & A & B). apply (Permutation_in _ (Permutation_sym PE)) in J. apply in_concat in J as (l & J & K).
      apply in_map_iff in J as (g & <- & J). pose proof GO as GO'. rewrite Forall_forall in GO'. destruct (GO' g J) as (H & _). rewrite Forall_forall in H.
      destruct (H s K) as (P1 & P2 & P3 & _). assert (X : In (gp_from g) (map gp_from L)) by (apply in_map; apply L_in; split; [exact J|]; split; congruence).
      specialize (F _ X). lia.
  Qed.
  Lemma max_to : forall v, is_max v (map gp_to L) ->
    (exists s, ref_at refs f c s /\ r_end s = v) /\ (forall s, ref_at refs f c s -> r_end s <= v).
  Proof.
    intros v [I F]. rewrite Forall_forall in F. split.
    - apply in_map_iff in I as (g & <- & I). apply L_in in I as (I & A & B). pose proof GO as GO'. rewrite Forall_forall in GO'.
      destruct (GO' g I) as (H & _ & (s & J & E) & _). rewrite Forall_forall in H. destruct (H s J) as (P1 & P2 & _).
      exists s. split; [|exact E]. split; [eapply group_seg_in; eassumption|]. split; congruence.
    - intros s (J & A & B). apply (Permutation_in _ (Permutation_sym PE)) in J. apply in_concat in J as (l & J & K).
      apply in_map_iff in J as (g & <- & J). pose proof GO as GO'. rewrite Forall_forall in GO'. destruct (GO' g J) as (H & _). rewrite Forall_forall in H.
      destruct (H s K) as (P1 & P2 & _ & P3). assert (X : In (gp_to g) (map gp_to L)) by (apply in_map; apply L_in; split; [exact J|]; split; congruence).
      specialize (F _ X). lia.
  Qed.
End Place.

Lemma even_ends : forall l, Nat.even (length (flat_map ends l)) = true.
Proof. induction l as [|i l IH]; [reflexivity|exact IH]. Qed.
Lemma par_twice : forall t A (l : list A) a b, par t (flat_map (fun _ => [a; b]) l) = if Nat.even (length l) then false else xorb (a <=? t) (b <=? t).
Proof.
  intros t A l a b. induction l as [|x l IH]; [reflexivity|]. cbn [flat_map app par length]. rewrite IH, Nat.even_succ, <- Nat.negb_even.
  destruct (Nat.even (length l)); cbn [negb]; destruct (a <=? t), (b <=? t); reflexivity.
Qed.
Lemma even_twice : forall A (l : list A) (a b : Z), Nat.even (length (flat_map (fun _ => [a; b]) l)) = true.
Proof. induction l as [|i l IH]; intros a b; [reflexivity|exact (IH a b)]. Qed.
