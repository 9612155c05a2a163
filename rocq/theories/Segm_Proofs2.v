From Coq Require Import List ZArith NArith Arith Bool Lia Permutation.
From Verif Require Import Base Store_Model Store_Proofs Segm_Model Segm_Spec Segm_Proofs.
Import ListNotations.
Local Open Scope Z_scope.

(** * Sets of names *)
Lemma existsb_str : forall x l, existsb (str_eqb x) l = true <-> In x l.
Proof.
  intros x l. rewrite existsb_exists. split.
  - intros (y & I & E). apply str_eqb_spec in E. subst. exact I.
  - intro I. exists x. split; [exact I|apply str_eqb_refl].
Qed.
Lemma set_place_perm : forall x l, Permutation (set_place x l) (x :: l).
Proof.
  induction l as [|y l IH]; cbn [set_place]; [reflexivity|]. destruct (str_leb x y); [reflexivity|].
  rewrite IH. apply perm_swap.
Qed.
Lemma set_insert_in : forall x y l, In y (set_insert x l) <-> y = x \/ In y l.
Proof.
  intros x y l. unfold set_insert. destruct (existsb (str_eqb x) l) eqn:E.
  - apply existsb_str in E. split; [auto|]. intros [->|H]; assumption.
  - split; intro H.
    + apply (Permutation_in _ (set_place_perm x l)) in H. destruct H as [<-|H]; auto.
    + apply (Permutation_in _ (Permutation_sym (set_place_perm x l))). destruct H as [->|H]; [left; reflexivity|right; exact H].
Qed.
Lemma set_insert_nodup : forall x l, NoDup l -> NoDup (set_insert x l).
Proof.
  intros x l H. unfold set_insert. destruct (existsb (str_eqb x) l) eqn:E; [exact H|].
  apply (Permutation_NoDup (Permutation_sym (set_place_perm x l))). constructor; [|exact H].
  intro I. apply existsb_str in I. congruence.
Qed.

Definition places_ok (segs : list rseg) (acc : list str * smap (list str)) : Prop :=
  NoDup (fst acc) /\ (forall x, In x (fst acc) <-> exists s, In s segs /\ r_src s = x) /\
  (forall x, NoDup (chans_of (snd acc) x)) /\
  (forall x y, In y (chans_of (snd acc) x) <-> exists s, In s segs /\ r_src s = x /\ r_ch s = y).

Lemma chans_of_mput : forall m k v k', chans_of (mput m k v) k' = if str_eqb k k' then v else chans_of m k'.
Proof. intros. unfold chans_of. rewrite massoc_mput. destruct (str_eqb k k'); reflexivity. Qed.

Lemma add_place_ok : forall segs acc s, places_ok segs acc -> places_ok (segs ++ [s]) (add_place acc s).
Proof.
  intros segs [srcs m] s (A & B & C & D). unfold add_place, places_ok. cbn [fst snd] in *.
  assert (IN : forall (P : rseg -> Prop), (exists z, In z (segs ++ [s]) /\ P z) <-> (exists z, In z segs /\ P z) \/ P s).
  { intro P. split.
    - intros (z & I & H). apply in_app_iff in I as [I|[<-|[]]]; [left; exists z; auto|right; exact H].
    - intros [(z & I & H)|H]; [exists z|exists s]; (split; [apply in_app_iff|exact H]); [left; exact I|right; left; reflexivity]. }
  split; [apply set_insert_nodup; exact A|]. split; [|split].
  - intro x. rewrite set_insert_in, B, (IN (fun z => r_src z = x)). intuition congruence.
  - intro x. rewrite chans_of_mput. destruct (str_eqb (r_src s) x); [|apply C]. apply set_insert_nodup. apply C.
  - intros x y. rewrite (IN (fun z => r_src z = x /\ r_ch z = y)), chans_of_mput.
    destruct (str_eqb (r_src s) x) eqn:E.
    + apply str_eqb_spec in E. subst x. rewrite set_insert_in, D. intuition congruence.
    + rewrite D. split; [auto|]. intros [H|[H _]]; [exact H|]. subst x. rewrite str_eqb_refl in E. discriminate.
Qed.

Lemma collect_ok : forall set, places_ok (concat set) (collect_places set).
Proof.
  intro set. unfold collect_places.
  assert (G1 : forall sp segs acc, places_ok segs acc -> places_ok (segs ++ sp) (fold_left add_place sp acc)).
  { induction sp as [|s sp IH]; intros segs acc H; cbn [fold_left]; [rewrite app_nil_r; exact H|].
    replace (segs ++ s :: sp) with ((segs ++ [s]) ++ sp) by (rewrite <- app_assoc; reflexivity).
    apply IH. apply add_place_ok. exact H. }
  assert (G2 : forall l segs acc, places_ok segs acc -> places_ok (segs ++ concat l) (fold_left (fun acc sp => fold_left add_place sp acc) l acc)).
  { induction l as [|sp l IH]; intros segs acc H; cbn [fold_left concat]; [rewrite app_nil_r; exact H|].
    rewrite app_assoc. apply IH. apply G1. exact H. }
  apply (G2 set [] ([], [])). split; [constructor|]. cbn [fst snd]. split; [|split].
  - intro x. split; [intros []|intros (s & [] & _)].
  - intro x. constructor.
  - intros x y. split; [intros []|intros (s & [] & _)].
Qed.

(** * The iteration *)
Section Iter.
  Variable set : list speech.
  Hypothesis OK : set_ok set.

  Definition pend_of (chans : smap (list str)) (srcs : list str) : list (str * str) :=
    flat_map (fun x => map (pair x) (chans_of chans x)) srcs.
  Definition pend (st : seg_state) : list (str * str) :=
    map (pair (g_src st)) (chans_of (g_chans st) (g_src st)) ++ pend_of (g_chans st) (g_srcs st).

  Record inv (st : seg_state) : Prop := {
    v_nodup : NoDup ((g_src st, g_ch st) :: pend st);
    v_srcs : NoDup (g_src st :: g_srcs st);
    v_real : forall p, In p (pend st) -> exists s, at_pl set (fst p) (snd p) s;
    v_chans : forall x, In x (g_srcs st) -> chans_of (g_chans st) x <> []
  }.

  Lemma pend_of_ext : forall m m' srcs, (forall x, In x srcs -> chans_of m x = chans_of m' x) -> pend_of m srcs = pend_of m' srcs.
  Proof.
    intros m m' srcs H. unfold pend_of. induction srcs as [|x l IH]; [reflexivity|]. cbn [flat_map].
    rewrite (H x (or_introl eq_refl)). f_equal. apply IH. intros; apply H; right; assumption.
  Qed.

  Lemma pend_of_mput : forall m x v srcs, ~ In x srcs -> pend_of (mput m x v) srcs = pend_of m srcs.
  Proof.
    intros m x v srcs N. apply pend_of_ext. intros y I. rewrite chans_of_mput, str_eqb_neq; [reflexivity|].
    intros ->. contradiction.
  Qed.

  Lemma advance_cases : forall st T, inv st -> 0 <= T ->
    exists st', advance st T set = Ok st' /\ g_refs st' = g_refs st /\
    ((first_segment T (g_src st) (g_ch st) set <> None /\ g_cur st' = first_segment T (g_src st) (g_ch st) set /\
      g_src st' = g_src st /\ g_ch st' = g_ch st /\ pend st' = pend st /\ inv st')
     \/ (first_segment T (g_src st) (g_ch st) set = None /\ pend st = [] /\ g_cur st' = None /\ g_srcs st' = [])
     \/ (first_segment T (g_src st) (g_ch st) set = None /\ pend st = (g_src st', g_ch st') :: pend st' /\
         g_cur st' = first_segment 0 (g_src st') (g_ch st') set /\ g_cur st' <> None /\ inv st')).
  Proof.
    intros st T [V1 V2 V3 V4] HT. unfold advance.
    destruct (first_segment T (g_src st) (g_ch st) set) as [s|] eqn:E.
    - eexists. split; [reflexivity|]. split; [reflexivity|]. left. cbn [g_cur g_src g_ch]. split; [discriminate|].
      split; [reflexivity|]. split; [reflexivity|]. split; [reflexivity|]. split; [reflexivity|].
      split; assumption.
    - assert (FS : forall p, In p (pend st) -> first_segment 0 (fst p) (snd p) set <> None).
      { intros p I N. apply V3 in I as (s & S). pose proof (first_segment_spec set 0 (fst p) (snd p) (Z.le_refl 0) OK) as F.
        rewrite N in F. pose proof (F s S) as F1. destruct S as [S _]. apply (set_ok_in _ _ OK) in S. unfold seg_ok in S. lia. }
      inversion V2 as [|? ? V2a V2b]; subst.
      destruct (chans_of (g_chans st) (g_src st)) as [|ch chs'] eqn:C.
      + destruct (g_srcs st) as [|src srcs'] eqn:S.
        * eexists. split; [reflexivity|]. split; [reflexivity|]. right. left. cbn [g_cur g_srcs]. split; [reflexivity|].
          split; [|auto]. unfold pend. rewrite C, S. reflexivity.
        * unfold start_iteration. pose proof (V4 src (or_introl eq_refl)) as V4s.
          destruct (chans_of (g_chans st) src) as [|ch chs'] eqn:C'; [contradiction|].
          set (st' := {| g_refs := g_refs st; g_srcs := srcs'; g_chans := mput (g_chans st) src chs'; g_src := src; g_ch := ch;
                         g_cur := first_segment 0 src ch set |}).
          inversion V2b as [|? ? V2c V2d]; subst.
          assert (PE : pend st = (src, ch) :: pend st').
          { unfold pend. rewrite C, S. cbn [map app]. unfold pend_of at 1. cbn [flat_map]. rewrite C'. cbn [map app].
            f_equal. cbn [st' g_src g_chans g_srcs]. rewrite chans_of_mput, str_eqb_refl. f_equal.
            symmetry. apply pend_of_mput. exact V2c. }
          exists st'. split; [reflexivity|]. split; [reflexivity|]. right. right. split; [reflexivity|]. split; [exact PE|].
          split; [reflexivity|]. split; [apply (FS (src, ch)); rewrite PE; left; reflexivity|].
          split.
          -- inversion V1 as [|? ? _ V1b]; subst. rewrite PE in V1b. exact V1b.
          -- exact V2b.
          -- intros p I. apply V3. rewrite PE. right. exact I.
          -- intros x I. cbn [st' g_chans]. rewrite chans_of_mput, str_eqb_neq by (intros ->; contradiction).
             apply V4. right. exact I.
      + set (st' := {| g_refs := g_refs st; g_srcs := g_srcs st; g_chans := mput (g_chans st) (g_src st) chs'; g_src := g_src st; g_ch := ch;
                       g_cur := first_segment 0 (g_src st) ch set |}).
        assert (PE : pend st = (g_src st, ch) :: pend st').
        { unfold pend. rewrite C. cbn [map app]. f_equal. cbn [st' g_src g_chans g_srcs]. rewrite chans_of_mput, str_eqb_refl. f_equal.
          symmetry. apply pend_of_mput. exact V2a. }
        exists st'. split; [reflexivity|]. split; [reflexivity|]. right. right. split; [reflexivity|]. split; [exact PE|].
        split; [reflexivity|]. split; [apply (FS (g_src st, ch)); rewrite PE; left; reflexivity|].
        split.
        * inversion V1 as [|? ? _ V1b]; subst. rewrite PE in V1b. exact V1b.
        * exact V2.
        * intros p I. apply V3. rewrite PE. right. exact I.
        * intros x I. cbn [st' g_chans]. rewrite chans_of_mput, str_eqb_neq by (intro Q; apply V2a; rewrite Q; exact I). apply V4. exact I.
  Qed.
End Iter.
