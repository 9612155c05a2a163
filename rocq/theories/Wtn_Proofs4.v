(** All networks merged: the composite network and what each system has in it. *)
From Coq Require Import List ZArith Arith Bool Lia Permutation.
From Verif Require Import Base Net_Model Net_Spec Net_Proofs1 Net_Proofs2 Net_Proofs3 NetDp_Model NetDp_Spec NetDp_Proofs2 NetDp_Proofs5 Merge_Model Copy_Model Copy_Spec Copy_Proofs2 Wtn_Model Wtn_Spec Wtn_Proofs1 Wtn_Proofs2 Wtn_Proofs3.
Import ListNotations.
Local Open Scope res_scope.

Section Lines.
Context {D : Type}.
Variable copy : D -> D.
Lemma slots_data (N : net D) u S : slots N u S -> forall xs v x, npath N u xs v -> In x (n_out N v) -> n_data N x <> None.
Proof.
  induction 1 as [u E|u s v S NE E T H IH]; intros xs q x P I.
  - destruct xs as [|y xs]; [apply npath_nil in P; subst; rewrite E in I; destruct I|]. apply npath_cons_inv in P. rewrite E in P. destruct P as [[] _].
  - destruct xs as [|y xs].
    + apply npath_nil in P. subst q. intros E0. assert (K : In (n_data N x) (map Some s)) by (rewrite <- E; apply in_map, I). rewrite E0 in K. apply in_map_iff in K. destruct K as (d & K & _). discriminate.
    + apply npath_cons_inv in P. destruct P as [I1 P]. rewrite (T y I1) in P. exact (IH _ _ _ P I).
Qed.
Lemma wtn_no_null (N : net D) S : is_wtn N S -> no_null_data N.
Proof. intros [W H] x u I. destruct (wf_reach N W x u I) as (xs & P). exact (slots_data N _ _ H xs u x P I). Qed.

Lemma line_shape (N C : net D) f g : wf_net N -> wf_net C -> same_shape copy N C f g -> forall l u, reachable N u -> slots N u (map (fun d => [d]) l) -> slots C (f u) (map (fun d => [d]) (map copy l)).
Proof.
  intros WN WC SS. assert (BK : forall u y, reachable N u -> In y (n_out C (f u)) -> exists x, In x (n_out N u) /\ y = g x).
  { intros u y R I. destruct (ss_all _ _ _ _ _ SS y _ I) as (x & u' & I' & -> & E). exists x. split; [|reflexivity].
    replace u with u'; [exact I'|]. symmetry. apply (ss_nodes _ _ _ _ _ SS); [exact R|apply (wf_reach N WN x u' I')|exact E]. }
  induction l as [|d l IH]; intros u R H; inversion H; subst.
  - constructor. destruct (n_out C (f u)) as [|y l] eqn:E; [reflexivity|]. destruct (BK u y R) as (x & I & _); [rewrite E; now left|]. match goal with K : n_out N u = [] |- _ => rewrite K in I; destruct I end.
  - match goal with K : map (n_data N) (n_out N u) = map Some [d] |- _ => rename K into E end. destruct (n_out N u) as [|x [|? ?]] eqn:O; try discriminate. cbn in E. injection E as E.
    assert (Ix : In x (n_out N u)) by (rewrite O; now left). destruct (ss_arcs _ _ _ _ _ SS x u Ix) as (J1 & J2 & J3).
    assert (OC : n_out C (f u) = [g x]).
    { assert (AL : forall y, In y (n_out C (f u)) -> y = g x) by (intros y I; destruct (BK u y R I) as (x' & I' & ->); rewrite O in I'; destruct I' as [->|[]]; reflexivity).
      pose proof (wf_nd_out C WC (f u)) as ND. destruct (n_out C (f u)) as [|a [|b q]]; [destruct J1|f_equal; apply AL; now left|]. exfalso. inversion ND as [|? ? K _]; subst. apply K. left.
      transitivity (g x); [apply AL; right; now left|symmetry; apply AL; now left]. }
    cbn [map]. match goal with K : forall y, In y [x] -> n_to N y = ?q |- _ => pose proof (K x (or_introl eq_refl)) as TX end. apply (slots_more C (f u) [copy d] (f v)); [discriminate| | |].
    + rewrite OC. cbn [map]. rewrite J3, E. reflexivity.
    + intros y. rewrite OC. intros [<-|[]]. rewrite J2, TX. reflexivity.
    + apply IH; [rewrite <- TX; apply (reachable_step N u); assumption|assumption].
Qed.
Lemma copy_line N l : is_line N l -> exists C, copy_net copy N = Ok C /\ is_line C (map copy l).
Proof.
  intros H. pose proof (wtn_no_null N _ H) as NN. destruct H as [W S]. destruct (copy_ok copy N W NN) as (C & f & g & E & WC & SS). exists C. split; [exact E|]. split; [exact WC|].
  rewrite (ss_start _ _ _ _ _ SS). apply (line_shape N C f g W WC SS); [apply reachable_start|exact S].
Qed.
End Lines.

Section Facts.
Context {D : Type}.
Variables (w : option D -> option D -> Z) (copy : D -> D) (null : D).
Lemma aligned_len n S Y R c : aligned w copy null n S Y R c -> Forall (fun s => length s = n) S -> Forall (fun s => length s = Datatypes.S n) R /\ length R <= length S + length Y.
Proof.
  induction 1 as [|S Y R c s x y H IH I|S Y R c s x H IH I|S Y R c y H IH]; intros F.
  - split; [constructor|cbn; lia].
  - apply Forall_app in F. destruct F as [F1 F2]. destruct (IH F1) as [G1 G2]. inversion F2; subst. rewrite !app_length. cbn [length]. split; [|lia]. apply Forall_app. split; [exact G1|]. constructor; [|constructor]. rewrite app_length. cbn. lia.
  - apply Forall_app in F. destruct F as [F1 F2]. destruct (IH F1) as [G1 G2]. inversion F2; subst. rewrite !app_length. cbn [length]. split; [|lia]. apply Forall_app. split; [exact G1|]. constructor; [|constructor]. rewrite app_length. cbn. lia.
  - destruct (IH F) as [G1 G2]. rewrite !app_length. cbn [length]. split; [|lia]. apply Forall_app. split; [exact G1|]. constructor; [|constructor]. cbn. rewrite repeat_length. reflexivity.
Qed.
Lemma composite_len ls R : composite w copy null ls R -> Forall (fun s => length s = length ls) R /\ length R <= length (concat ls).
Proof.
  induction 1 as [l|ls S l R H [IH1 IH2] (c & A & _)].
  - rewrite map_length. cbn [concat length]. rewrite app_nil_r. split; [|lia]. apply Forall_forall. intros s I. apply in_map_iff in I. destruct I as (d & <- & _). reflexivity.
  - destruct (aligned_len _ _ _ _ _ A IH1) as [G1 G2]. rewrite app_length, concat_app, app_length. cbn [concat length]. rewrite app_nil_r, Nat.add_1_r. rewrite map_length in G2. split; [exact G1|lia].
Qed.
Variable P : D -> Prop.
Hypothesis Pc : forall d, P d -> P (copy d).
Hypothesis Pn : P null.
Lemma aligned_P n S Y R c : aligned w copy null n S Y R c -> Forall (Forall P) S -> Forall P Y -> Forall (Forall P) R.
Proof.
  induction 1 as [|S Y R c s x y H IH I|S Y R c s x H IH I|S Y R c y H IH]; intros F G; [constructor|..]; apply Forall_app.
  - apply Forall_app in F. destruct F as [F1 F2]. apply Forall_app in G. destruct G as [G1 G2]. inversion F2; inversion G2; subst. split; [auto|]. constructor; [|constructor]. apply Forall_app. split; [assumption|]. constructor; [auto|constructor].
  - apply Forall_app in F. destruct F as [F1 F2]. inversion F2; subst. split; [auto|]. constructor; [|constructor]. apply Forall_app. split; [assumption|]. constructor; [auto|constructor].
  - apply Forall_app in G. destruct G as [G1 G2]. inversion G2; subst. split; [auto|]. constructor; [|constructor]. constructor; [auto|]. apply Forall_forall. intros z I. apply repeat_spec in I. subst. auto.
Qed.
Lemma composite_P ls R : composite w copy null ls R -> Forall (Forall P) ls -> Forall (Forall P) R.
Proof.
  induction 1 as [l|ls S l R H IH (c & A & _)]; intros F.
  - inversion F as [|? ? F1 _]; subst. apply Forall_forall. intros s I. apply in_map_iff in I. destruct I as (d & <- & I). constructor; [|constructor]. apply Pc. rewrite Forall_forall in F1. auto.
  - apply Forall_app in F. destruct F as [F1 F2]. inversion F2 as [|? ? F3 _]; subst. eapply aligned_P; [exact A|auto|]. apply Forall_forall. intros d I. apply in_map_iff in I. destruct I as (d' & <- & I). apply Pc. rewrite Forall_forall in F3. auto.
Qed.
Variable w2 : option D -> option D -> Z.
Hypothesis Ew : forall x y, x <> None \/ y <> None -> (forall d, x = Some d -> P d) -> (forall d, y = Some d -> P d) -> w x y = w2 x y.
Lemma aligned_ext n S Y R c : aligned w copy null n S Y R c -> Forall (Forall P) S -> Forall P Y -> aligned w2 copy null n S Y R c.
Proof.
  induction 1 as [|S Y R c s x y H IH I|S Y R c s x H IH I|S Y R c y H IH]; intros F G; [constructor|..].
  - apply Forall_app in F. destruct F as [F1 F2]. apply Forall_app in G. destruct G as [G1 G2]. inversion F2 as [|? ? F3 _]; inversion G2; subst. rewrite Forall_forall in F3.
    rewrite Ew; [apply al_sub; auto|left; congruence| |]; intros d E; injection E as <-; auto.
  - apply Forall_app in F. destruct F as [F1 F2]. inversion F2 as [|? ? F3 _]; subst. rewrite Forall_forall in F3.
    rewrite Ew; [apply al_del; auto|left; congruence| |]; intros d E; [injection E as <-; auto|discriminate].
  - apply Forall_app in G. destruct G as [G1 G2]. inversion G2; subst.
    rewrite Ew; [apply al_ins; auto|right; congruence| |]; intros d E; [discriminate|injection E as <-; auto].
Qed.
End Facts.

Lemma Forall_copy {D} (P : D -> Prop) copy l : (forall d, P d -> P (copy d)) -> Forall P l -> Forall P (map copy l).
Proof. intros H F. rewrite Forall_forall in *. intros d I. apply in_map_iff in I. destruct I as (d' & <- & I). auto. Qed.
Lemma concat_len {X} (n : nat) (R : list (list X)) : Forall (fun s => length s = n) R -> length (concat R) = length R * n.
Proof. induction 1 as [|s R E F IH]; [reflexivity|]. cbn. rewrite app_length, IH, E. reflexivity. Qed.

Section Main.
Context {D : Type}.
Variable wwd : option D -> option D -> res Z.
Variable copy : D -> D.
Variable null : D.
Variable w : option D -> option D -> Z.
Variable Wm : Z.
Variable P : D -> Prop.
Hypothesis Pc : forall d, P d -> P (copy d).
Hypothesis Pn : P null.
Let okw (x : option D) : Prop := forall d, x = Some d -> P d.
Hypothesis Hw : forall x y, x <> None \/ y <> None -> okw x -> okw y -> wwd x y = Ok (w x y) /\ (w x y <= Wm)%Z.
Hypothesis HWm : (0 <= Wm)%Z.
Let w' (x y : option D) : Z := Z.min (w x y) Wm.
Let wwd' (x y : option D) : res Z := match x, y with None, None => wwd x y | _, _ => Ok (w' x y) end.

Definition headed (A : net D) (Q : list (list D)) : Prop := exists h v r, saus A (([h], v) :: r) /\ n_data A h = None /\ sdata A r = map (map Some) Q.

Lemma trav A Q : headed A Q -> exists h v r xs, saus A (([h], v) :: r) /\ n_data A h = None /\ sdata A r = map (map Some) Q /\ traverse_arcs Inorder (S (n_nodes A)) A = Ok xs /\
  NoDup xs /\ (forall x, In x xs <-> exists u, In x (n_out A u)) /\ arcs_ordered A xs /\ (exists tl, xs = h :: tl) /\ length xs <= S (length (concat Q)) /\
  (Forall (Forall P) Q -> forall x, In x xs -> okw (n_data A x)).
Proof.
  intros (h & v & r & S0 & Dh & E). pose proof S0 as (W & t & ST & RW). destruct (traverse_arcs_inorder A W (S (n_nodes A)) ltac:(lia)) as (xs & T & ND & All & Ord & (tl & Ft)).
  exists h, v, r, xs. rewrite (side_out A h v r S0) in Ft.
  assert (INC : incl xs (h :: concat (map fst r))).
  { intros x I. apply All in I. destruct I as (u & I). destruct (live_lev A W _ _ RW ST x u I) as (i & (l & v' & En & Il)). destruct i as [|i].
    - cbn in En. injection En as <- <-. destruct Il as [->|[]]. now left.
    - right. apply in_concat. exists l. split; [|exact Il]. apply in_map_iff. exists (l, v'). split; [reflexivity|]. cbn in En. eapply nth_error_In, En. }
  assert (LEN : length (concat (map fst r)) = length (concat Q)).
  { transitivity (length (concat (sdata A r))).
    - unfold sdata. clear. induction r as [|[l v] r IH]; [reflexivity|]. cbn. rewrite !app_length, map_length, IH. reflexivity.
    - rewrite E. clear. induction Q as [|s Q IH]; [reflexivity|]. cbn. rewrite !app_length, map_length, IH. reflexivity. }
  split; [exact S0|]. split; [exact Dh|]. split; [exact E|]. split; [exact T|]. split; [exact ND|]. split; [exact All|]. split; [exact Ord|]. split; [exists tl; exact Ft|]. split.
  - pose proof (NoDup_incl_length ND INC) as L. cbn [length] in L. lia.
  - intros F x I. apply INC in I. destruct I as [<-|I]; [intros d Ex; congruence|]. apply in_concat in I. destruct I as (l & I1 & I2). apply in_map_iff in I1. destruct I1 as ([l' v'] & El & I1). cbn in El. subst l'.
    assert (K : In (map (n_data A) l) (sdata A r)) by (unfold sdata; apply in_map_iff; exists (l, v'); auto). rewrite E in K. apply in_map_iff in K. destruct K as (s & Es & Is).
    assert (K : In (n_data A x) (map Some s)) by (rewrite Es; apply in_map, I2). apply in_map_iff in K. destruct K as (d & Ed & Id). intros d' Ed'. rewrite <- Ed in Ed'. injection Ed' as <-.
    rewrite Forall_forall in F. specialize (F s Is). rewrite Forall_forall in F. auto.
Qed.

Lemma w'_eq x y : x <> None \/ y <> None -> okw x -> okw y -> w' x y = w x y.
Proof. intros H A B. unfold w'. pose proof (proj2 (Hw x y H A B)). lia. Qed.
Lemma wwd'_eq x y : okw x -> okw y -> wwd x y = wwd' x y.
Proof.
  intros A B. unfold wwd'. destruct x as [a|], y as [b|]; try reflexivity; (rewrite w'_eq; [apply Hw|..]); try assumption; try (left; congruence); right; congruence.
Qed.

Lemma merge_one_ok A Q B Y T n : headed A Q -> headed B (map (fun y => [y]) Y) -> Forall (Forall P) Q -> Forall P Y ->
  (Z.of_nat (length (concat Q)) + 1 <= MAX_MATRIX - 1)%Z -> (Z.of_nat (length Y) + 1 <= MAX_MATRIX - 1)%Z ->
  (Wm * (Z.of_nat (length (concat Q)) + Z.of_nat (length Y) + 2) < BIG_END)%Z ->
  exists A' T' R, merge_one wwd copy null (A, T) (n, B) = Ok (A', T') /\ headed A' R /\ cheapest w copy null n Q Y R.
Proof.
  intros HA HB FQ FY M1 M2 Big.
  destruct (trav A Q HA) as (h & v & r & xs & SA & Dh & EA & TA & NDA & AllA & OrdA & FA & LA & WA).
  destruct (trav B _ HB) as (g & u & q & ys & SB & Dg & EB & TB & NDB & AllB & OrdB & FB & LB & WB).
  assert (LY : length (concat (map (fun y => [y]) Y)) = length Y) by (clear; induction Y as [|y Y IH]; [reflexivity|]; cbn; f_equal; exact IH). rewrite LY in LB.
  assert (FY' : Forall (Forall P) (map (fun y => [y]) Y)).
  { apply Forall_forall. intros s I. apply in_map_iff in I. destruct I as (y & <- & I). constructor; [|constructor]. rewrite Forall_forall in FY. auto. }
  unfold merge_one. rewrite TA. cbn [rbind]. rewrite TB. cbn [rbind].
  rewrite (proj2 (Z.ltb_ge _ _)), (proj2 (Z.ltb_ge _ _)) by lia. cbn [orb].
  assert (NO : okw None) by (intros d E; discriminate).
  rewrite (fill_ext wwd wwd' A B xs ys T); [|intros; apply wwd'_eq; auto..].
  assert (Hw' : forall x y, x <> None \/ y <> None -> wwd' x y = Ok (w' x y)) by (intros [x|] [y|] [H|H]; try congruence; reflexivity).
  assert (Hle' : forall x y, (w' x y <= Wm)%Z) by (intros; unfold w'; lia).
  assert (Big' : (Wm * (Z.of_nat (length xs) + Z.of_nat (length ys)) < BIG_END)%Z) by nia.
  rewrite (step_fill wwd' w' A B h v g u r q Q Y xs ys SA EA NDA AllA OrdA FA SB EB NDB AllB OrdB FB Hw' T). cbn [rbind].
  destruct (step_create copy null w' Wm A B h v g u r q Q Y xs ys n SA Dh EA NDA AllA OrdA FA SB EB NDB AllB OrdB FB HWm Hle' Big' T) as (A' & v' & h' & r' & R & E & S' & D' & E' & (c & C1 & C2)).
  rewrite E. cbn [rbind]. eexists _, _, R. split; [reflexivity|]. split; [exists h', v', r'; auto|].
  exists c. split.
  - eapply (aligned_ext w' copy null P w); eauto. intros x y H X1 X2. apply w'_eq; assumption.
  - intros R' c' H'. apply (C2 R' c'). eapply (aligned_ext w copy null P w'); eauto. intros x y H X1 X2. symmetry. apply w'_eq; assumption.
Qed.

Lemma copies_ok nets ls : Forall2 is_line nets ls -> exists cs, copies copy nets = Ok cs /\ Forall2 (fun C l => headed C (map (fun d => [d]) (map copy l))) cs ls.
Proof.
  induction 1 as [|N l nets ls H F (cs & E & G)]; [exists []; split; [reflexivity|constructor]|].
  destruct (copy_line copy N l H) as (C & EC & HC). exists (add_head C None :: cs). cbn [copies]. rewrite EC. cbn [rbind]. rewrite E. split; [reflexivity|]. constructor; [|exact G].
  destruct (head_saus C _ HC) as (v & r & S0 & D0 & E0). exists (n_arcs C), v, r. auto.
Qed.

Lemma loop ls2 : forall cs ls A S T k tot, Forall2 (fun C l => headed C (map (fun d => [d]) (map copy l))) cs ls2 -> composite w copy null ls S -> headed A S -> Forall (Forall P) ls -> Forall (Forall P) ls2 ->
  k = length ls -> tot = length (concat (ls ++ ls2)) ->
  (Z.of_nat (length (ls ++ ls2)) * Z.of_nat tot + 1 <= MAX_MATRIX - 1)%Z -> (Wm * (Z.of_nat (length (ls ++ ls2)) * Z.of_nat tot + Z.of_nat tot + 2) < BIG_END)%Z ->
  exists A' T' R, rfold (merge_one wwd copy null) (combine (seq k (length cs)) cs) (A, T) = Ok (A', T') /\ headed A' R /\ composite w copy null (ls ++ ls2) R.
Proof.
  induction ls2 as [|l ls2 IH]; intros cs ls A S0 T k tot F HC HA P1 P2 Ek Et M Big; inversion F; subst.
  - exists A, T, S0. rewrite app_nil_r. split; [reflexivity|]. split; assumption.
  - rename x into C. rename l0 into cs'. inversion P2 as [|? ? P3 P4]; subst.
    destruct (composite_len w copy null ls S0 HC) as [L1 L2]. pose proof (concat_len _ _ L1) as L3.
    assert (T1 : length (concat ls) + length l <= length (concat (ls ++ l :: ls2))) by (rewrite concat_app, app_length; cbn [concat]; rewrite app_length; lia).
    assert (T2 : length ls + 1 <= length (ls ++ l :: ls2)) by (rewrite app_length; cbn; lia).
    assert (K1 : length (concat S0) <= length (ls ++ l :: ls2) * length (concat (ls ++ l :: ls2))) by nia.
    assert (K2 : length l <= length (ls ++ l :: ls2) * length (concat (ls ++ l :: ls2))) by nia.
    assert (HT : (Z.of_nat (length (concat S0)) + Z.of_nat (length (map copy l)) + 2 <= Z.of_nat (length (ls ++ l :: ls2)) * Z.of_nat (length (concat (ls ++ l :: ls2))) + Z.of_nat (length (concat (ls ++ l :: ls2))) + 2)%Z).
    { rewrite map_length. clear -K1 T1. nia. }
    destruct (merge_one_ok A S0 C (map copy l) T (length ls) HA ltac:(assumption)) as (A' & T' & R & E & HA' & CH).
    + eapply composite_P; eauto.
    + apply Forall_copy; assumption.
    + clear -K1 M. nia.
    + rewrite map_length. clear -K2 M. nia.
    + clear -HT Big HWm. nia.
    + assert (EQ : (ls ++ [l]) ++ ls2 = ls ++ l :: ls2) by (rewrite <- app_assoc; reflexivity).
      destruct (IH cs' (ls ++ [l]) A' R T' (S (length ls)) (length (concat (ls ++ l :: ls2)))) as (A2 & T2' & R2 & E2 & HH2 & C2); try assumption.
      * apply co_more with (S := S0); assumption.
      * apply Forall_app. split; [assumption|]. constructor; [assumption|constructor].
      * rewrite app_length. cbn. lia.
      * rewrite EQ. reflexivity.
      * rewrite EQ. exact M.
      * rewrite EQ. exact Big.
      * exists A2, T2', R2. rewrite EQ in C2. split; [|split; assumption]. cbn [length seq combine]. unfold rfold in E2 |- *. cbn [fold_left rbind]. rewrite E. exact E2.
Qed.

Theorem dpalign_n_ok nets ls T : nets <> [] -> Forall2 is_line nets ls -> Forall (Forall P) ls ->
  (Z.of_nat (length ls) * Z.of_nat (length (concat ls)) + 1 <= MAX_MATRIX - 1)%Z -> (Wm * (Z.of_nat (length ls) * Z.of_nat (length (concat ls)) + Z.of_nat (length (concat ls)) + 2) < BIG_END)%Z ->
  exists G R, dpalign_n wwd copy null nets T = Ok G /\ is_wtn G R /\ composite w copy null ls R.
Proof.
  intros NE F FP M Big. destruct (copies_ok nets ls F) as (cs & E & G). unfold dpalign_n. rewrite E. cbn [rbind].
  destruct G as [|C l cs ls HC G]; [inversion F; subst; congruence|]. inversion FP as [|? ? P1 P2]; subst.
  assert (HC' : headed C (map (fun d => [copy d]) l)) by (rewrite map_map in HC; exact HC).
  destruct (loop ls cs [l] C _ T 1 (length (concat (l :: ls))) G (co_one w copy null l) HC') as (A' & T' & R & E2 & (h & v & r & S2 & D2 & E3) & C2); try assumption; try reflexivity.
  { constructor; [assumption|constructor]. }
  rewrite E2. cbn [rbind fst]. destruct (unhead A' h v r R S2 D2 E3) as (G' & EG & HG). exists G', R. auto.
Qed.
End Main.

(** ** The systems *)
Section Columns.
Context {D : Type}.
Variables (w : option D -> option D -> Z) (copy : D -> D) (null : D).
Local Notation col := (column_of (copy null)).
Lemma words_app (cs : list (list (option D))) c i : words_of (cs ++ [c]) i = words_of cs i ++ match nth i c None with Some d => [d] | None => [] end.
Proof. unfold words_of. rewrite flat_map_app. cbn [flat_map]. rewrite app_nil_r. reflexivity. Qed.
Lemma Forall2_snoc {X Z} (R : X -> Z -> Prop) l x l' : Forall2 R (l ++ [x]) l' -> exists m y, l' = m ++ [y] /\ Forall2 R l m /\ R x y.
Proof.
  intros H. apply Forall2_app_inv_l in H. destruct H as (m & t & H1 & H2 & ->). inversion H2 as [|? y ? ? Hy Ht]; subst. inversion Ht; subst. exists m, y. auto.
Qed.
Lemma nth_rep i n : nth i (repeat (@None D) n) None = None.
Proof. revert i. induction n as [|n IH]; intros [|i]; try reflexivity. cbn. apply IH. Qed.
Definition full_cols (n : nat) (cs : list (list (option D))) : Prop := Forall (fun c => length c = n /\ exists d, In (Some d) c) cs.
Lemma full_snoc n cs c : full_cols n (cs ++ [c]) <-> full_cols n cs /\ length c = n /\ exists d, In (Some d) c.
Proof.
  unfold full_cols. rewrite Forall_app. split; [intros [A B]; inversion B; subst; auto|]. intros (A & B & C). split; [exact A|]. constructor; [auto|constructor].
Qed.
Lemma aligned_cols n S Y R c : aligned w copy null n S Y R c -> forall cs, Forall2 col S cs -> full_cols n cs ->
  exists cs', Forall2 col R cs' /\ full_cols (Datatypes.S n) cs' /\ (forall i, i < n -> words_of cs' i = words_of cs i) /\ words_of cs' n = map copy Y.
Proof.
  induction 1 as [|S Y R c s x y H IH I|S Y R c s x H IH I|S Y R c y H IH]; intros cs F G.
  - inversion F; subst. exists []. split; [constructor|]. split; [constructor|]. split; reflexivity.
  - destruct (Forall2_snoc _ _ _ _ F) as (m & q & -> & F1 & Q). apply full_snoc in G. destruct G as (G1 & L & d & Id). destruct (IH m F1 G1) as (cs' & A1 & A2 & A3 & A4).
    exists (cs' ++ [q ++ [Some (copy y)]]). split; [|split; [|split]].
    + apply Forall2_app; [exact A1|]. constructor; [|constructor]. unfold column_of in *. rewrite map_app. cbn [map entry]. apply Permutation_app_tail, Q.
    + apply full_snoc. split; [exact A2|]. split; [rewrite app_length; cbn; lia|]. exists d. apply in_app_iff. now left.
    + intros i Hi. rewrite !words_app, A3 by exact Hi. rewrite app_nth1 by lia. reflexivity.
    + rewrite words_app, A4. rewrite app_nth2, L, Nat.sub_diag by lia. cbn [nth]. rewrite map_app. reflexivity.
  - destruct (Forall2_snoc _ _ _ _ F) as (m & q & -> & F1 & Q). apply full_snoc in G. destruct G as (G1 & L & d & Id). destruct (IH m F1 G1) as (cs' & A1 & A2 & A3 & A4).
    exists (cs' ++ [q ++ [None]]). split; [|split; [|split]].
    + apply Forall2_app; [exact A1|]. constructor; [|constructor]. unfold column_of in *. rewrite map_app. cbn [map entry]. apply Permutation_app_tail, Q.
    + apply full_snoc. split; [exact A2|]. split; [rewrite app_length; cbn; lia|]. exists d. apply in_app_iff. now left.
    + intros i Hi. rewrite !words_app, A3 by exact Hi. rewrite app_nth1 by lia. reflexivity.
    + rewrite words_app, A4. rewrite app_nth2, L, Nat.sub_diag by lia. cbn [nth]. apply app_nil_r.
  - destruct (IH cs F G) as (cs' & A1 & A2 & A3 & A4). exists (cs' ++ [repeat None n ++ [Some (copy y)]]). split; [|split; [|split]].
    + apply Forall2_app; [exact A1|]. constructor; [|constructor]. unfold column_of. rewrite map_app. cbn [map entry]. rewrite map_rep. cbn [entry]. apply Permutation_cons_append.
    + apply full_snoc. split; [exact A2|]. split; [rewrite app_length, repeat_length; cbn; lia|]. exists (copy y). apply in_app_iff. right. now left.
    + intros i Hi. rewrite words_app, A3 by exact Hi. rewrite app_nth1 by (rewrite repeat_length; exact Hi). rewrite nth_rep. apply app_nil_r.
    + rewrite words_app, A4. rewrite app_nth2, repeat_length, Nat.sub_diag by (rewrite repeat_length; lia). cbn [nth]. rewrite map_app. reflexivity.
Qed.
Lemma composite_cols ls R : composite w copy null ls R -> exists cs, Forall2 col R cs /\ full_cols (length ls) cs /\
  forall i l, nth_error ls i = Some l -> words_of cs i = match i with 0 => map copy l | S _ => map copy (map copy l) end.
Proof.
  induction 1 as [l|ls S l R H (cs & A1 & A2 & A3) (c & A & _)].
  - exists (map (fun d => [Some (copy d)]) l). split; [|split].
    + induction l as [|d l IH]; [constructor|]. cbn [map]. constructor; [|exact IH]. unfold column_of. cbn. apply Permutation_refl.
    + apply Forall_forall. intros c I. apply in_map_iff in I. destruct I as (d & <- & _). split; [reflexivity|]. exists (copy d). now left.
    + intros [|i] l' E; [|destruct i; discriminate]. injection E as <-. induction l as [|d l IH]; [reflexivity|]. cbn. unfold words_of in IH. cbn in IH. rewrite IH. reflexivity.
  - destruct (aligned_cols _ _ _ _ _ A cs A1 A2) as (cs' & B1 & B2 & B3 & B4). exists cs'. split; [exact B1|]. split; [rewrite app_length; cbn [length]; rewrite Nat.add_1_r; exact B2|].
    intros i l' E. destruct (Nat.lt_ge_cases i (length ls)) as [L|L].
    + rewrite nth_error_app1 in E by exact L. rewrite B3 by exact L. apply A3, E.
    + rewrite nth_error_app2 in E by exact L. destruct (i - length ls) as [|k] eqn:K; [|destruct k; discriminate]. injection E as <-. replace i with (length ls) by lia. rewrite B4.
      destruct ls; [|reflexivity]. inversion H. destruct ls; discriminate.
Qed.
End Columns.
