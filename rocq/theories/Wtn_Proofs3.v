(** One network merged into the composite: the way back is a cheapest alignment. *)
From Coq Require Import List ZArith Arith Bool Lia Permutation.
From Verif Require Import Base Net_Model Net_Spec Net_Proofs1 Net_Proofs2 Net_Proofs3 NetDp_Model NetDp_Spec NetDp_Proofs1 NetDp_Proofs2 NetDp_Proofs3 Merge_Model Copy_Model Wtn_Model Wtn_Spec Wtn_Proofs1 Wtn_Proofs2.
Import ListNotations.
Local Open Scope res_scope.

Lemma firstn_snoc {X} (l : list X) i x : nth_error l i = Some x -> firstn (S i) l = firstn i l ++ [x].
Proof. revert l. induction i as [|i IH]; intros [|y l] E; try discriminate; [injection E as ->; reflexivity|]. cbn [firstn app]. f_equal. apply IH, E. Qed.
Lemma snoc_firstn {X} (l S0 : list X) x i : S0 ++ [x] = firstn i l -> exists k, S0 = firstn k l /\ nth_error l k = Some x /\ firstn i l = firstn (S k) l.
Proof.
  revert l S0. induction i as [|i IH]; intros l S0 E; [destruct S0; discriminate|]. destruct l as [|y l]; [destruct S0; discriminate|]. destruct S0 as [|z S0].
  - cbn in E. injection E as -> E. exists 0. split; [reflexivity|]. split; [reflexivity|]. cbn [firstn]. rewrite <- E. reflexivity.
  - cbn in E. injection E as -> E. destruct (IH l S0 E) as (k & -> & N1 & F). exists (S k). cbn [firstn]. split; [reflexivity|]. split; [exact N1|]. f_equal. rewrite F. reflexivity.
Qed.

Lemma map_rep {X Z} (f : X -> Z) x k : map f (repeat x k) = repeat (f x) k.
Proof. induction k as [|k IH]; [reflexivity|]. cbn. f_equal. exact IH. Qed.

Section Side.
Context {D : Type}.
Variables (G : net D) (h v0 : nat) (r : list (list nat * nat)) (Q : list (list D)) (xs : list nat).
Hypothesis HG : saus G (([h], v0) :: r).
Hypothesis Dh : n_data G h = None.
Hypothesis Ed : sdata G r = map (map Some) Q.
Hypothesis ND : NoDup xs.
Hypothesis All : forall x, In x xs <-> exists u, In x (n_out G u).
Hypothesis First : exists tl, xs = h :: tl.
Local Notation RR := (([h], v0) :: r).
Definition lev (k i : nat) : Prop := k < length xs /\ at_lev RR i (arcat xs k).

Lemma side_out : n_out G (n_start G) = [h].
Proof. destruct HG as (_ & t & _ & R). inversion R; subst. assumption. Qed.
Lemma at0 x : at_lev RR 0 x <-> x = h.
Proof.
  split; [intros (s & v & E & I); cbn in E; injection E as <- <-; destruct I as [I|[]]; congruence|]. intros ->. exists [h], v0. cbn. auto.
Qed.
Lemma at_in i x : at_lev RR i x -> In x xs.
Proof. destruct HG as (W & t & ST & R). intros L. apply All. exists (n_from G x). apply (lev_from G W _ _ R _ _ L). Qed.
Lemma lev_at i x : at_lev RR i x -> lev (index_of x xs) i.
Proof. intros L. pose proof (at_in i x L) as I. split; [apply index_of_lt, I|]. rewrite arcat_index by exact I. exact L. Qed.
Lemma lev_ex k : k < length xs -> exists i, lev k i.
Proof.
  destruct HG as (W & t & ST & R). intros L. pose proof (arcat_In xs k L) as I. apply All in I. destruct I as (u & I). destruct (live_lev G W _ _ R ST _ _ I) as (i & H). exists i. split; assumption.
Qed.
Lemma lev_uniq k i j : lev k i -> lev k j -> i = j.
Proof. destruct HG as (W & t & ST & R). intros [_ A] [_ B]. exact (lev_unique G W _ _ R _ _ _ A B). Qed.
Lemma lev_00 : lev 0 0.
Proof. split; [apply (len_pos h xs First)|]. rewrite (arcat_0 h xs First). now apply at0. Qed.
Lemma lev_zero k : lev k 0 -> k = 0.
Proof.
  intros [L A]. apply at0 in A. pose proof (index_arcat xs ND k L) as E. rewrite A in E. rewrite <- (arcat_0 h xs First) in E. rewrite (index_arcat xs ND) in E by apply (len_pos h xs First). lia.
Qed.
Lemma lev_lt k i : lev k (S i) -> k < length xs /\ 0 < k.
Proof. intros L. split; [apply L|]. destruct k; [|lia]. pose proof (lev_uniq _ _ _ L lev_00). discriminate. Qed.
Lemma lev_preds k i j : lev k (S i) -> (In j (preds G xs k) <-> lev j i).
Proof.
  destruct HG as (W & t & ST & R). intros [L A]. unfold preds. rewrite in_map_iff. split.
  - intros (y & <- & I). apply lev_at. apply (lev_pred G W _ _ R ST _ _ _ A), I.
  - intros [L2 A2]. exists (arcat xs j). split; [apply (index_arcat xs ND), L2|]. apply (lev_pred G W _ _ R ST _ _ _ A), A2.
Qed.
Lemma sdata_nth i : nth_error (sdata G r) i = option_map (fun p => map (n_data G) (fst p)) (nth_error r i).
Proof. unfold sdata. apply nth_error_map. Qed.
Lemma lev_word k i : lev k (S i) -> exists s l v x, nth_error r i = Some (l, v) /\ In (arcat xs k) l /\ map (n_data G) l = map Some s /\ nth_error Q i = Some s /\ In x s /\ n_data G (arcat xs k) = Some x.
Proof.
  intros [L (l & v & E & I)]. cbn in E. pose proof (sdata_nth i) as E2. rewrite E, Ed, nth_error_map in E2. destruct (nth_error Q i) as [s|]; [|discriminate]. cbn in E2. injection E2 as E2.
  assert (K : In (n_data G (arcat xs k)) (map Some s)) by (rewrite E2; apply in_map, I). apply in_map_iff in K. destruct K as (x & K1 & K2).
  exists s, l, v, x. auto 10.
Qed.
Lemma word_lev i s x : nth_error Q i = Some s -> In x s -> exists k, lev k (S i) /\ n_data G (arcat xs k) = Some x.
Proof.
  intros E I. pose proof (sdata_nth i) as E2. rewrite Ed, nth_error_map, E in E2. destruct (nth_error r i) as [[l v]|] eqn:Er; [|discriminate]. cbn in E2. injection E2 as E2.
  assert (K : In (Some x) (map (n_data G) l)) by (rewrite <- E2; apply in_map, I). apply in_map_iff in K. destruct K as (z & K1 & K2).
  assert (A : at_lev RR (S i) z) by (exists l, v; auto). exists (index_of z xs). split; [apply lev_at, A|]. rewrite arcat_index by (eapply at_in, A). exact K1.
Qed.
Lemma side_data x : In x xs -> x <> h -> n_data G x <> None.
Proof.
  intros I NE. pose proof (index_of_lt x xs I) as L. destruct (lev_ex _ L) as (i & H). destruct i as [|i].
  - destruct H as [_ A]. rewrite arcat_index in A by exact I. apply at0 in A. congruence.
  - destruct (lev_word _ i H) as (s & l & v & y & _ & _ & _ & _ & _ & E). rewrite arcat_index in E by exact I. congruence.
Qed.
Lemma side_len : length r = length Q.
Proof. pose proof (f_equal (@length _) Ed) as E. unfold sdata in E. rewrite !map_length in E. exact E. Qed.
Lemma lev_stop t k : n_stop G = Some t -> k < length xs -> (In (arcat xs k) (n_in G t) <-> lev k (length Q)).
Proof.
  destruct HG as (W & t' & ST & R). intros E L. assert (t' = t) by congruence. subst t'. rewrite (lev_last G W _ _ R ST). cbn [length]. rewrite <- side_len. split.
  - intros (i & A & Ei). injection Ei as ->. split; assumption.
  - intros [_ A]. eauto.
Qed.
End Side.

Section Step.
Context {D : Type}.
Variable wwd : option D -> option D -> res Z.
Variable copy : D -> D.
Variable null : D.
Variable w : option D -> option D -> Z.
Variable Wm : Z.
Variables A B : net D.
Variables (h v0 g u0 : nat) (rA rB : list (list nat * nat)) (QA : list (list D)) (Y : list D) (xs ys : list nat) (n : nat).
Hypothesis SA : saus A (([h], v0) :: rA).
Hypothesis Dh : n_data A h = None.
Hypothesis EA : sdata A rA = map (map Some) QA.
Hypothesis NDA : NoDup xs.
Hypothesis AllA : forall x, In x xs <-> exists u, In x (n_out A u).
Hypothesis OrdA : arcs_ordered A xs.
Hypothesis FA : exists tl, xs = h :: tl.
Hypothesis SB : saus B (([g], u0) :: rB).
Hypothesis Dg : n_data B g = None.
Hypothesis EB : sdata B rB = map (map Some) (map (fun y => [y]) Y).
Hypothesis NDB : NoDup ys.
Hypothesis AllB : forall x, In x ys <-> exists u, In x (n_out B u).
Hypothesis OrdB : arcs_ordered B ys.
Hypothesis FB : exists tl, ys = g :: tl.
Hypothesis Hw : forall x y, x <> None \/ y <> None -> wwd x y = Ok (w x y).
Hypothesis HWm : (0 <= Wm)%Z.
Hypothesis Hle : forall x y, (w x y <= Wm)%Z.
Hypothesis Hbig : (Wm * (Z.of_nat (length xs) + Z.of_nat (length ys)) < BIG_END)%Z.

Local Notation RA := (([h], v0) :: rA).
Local Notation RB := (([g], u0) :: rB).
Local Notation na := (length xs).
Local Notation nb := (length ys).
Local Notation pa := (preds A xs).
Local Notation pb := (preds B ys).
Local Notation wd := (NetDp_Proofs3.wd w A xs).
Local Notation wi := (NetDp_Proofs3.wi w B ys).
Local Notation ws := (NetDp_Proofs3.ws w A B xs ys).
Local Notation Tab := (table_of na nb pa pb wd wi ws).
Local Notation levA := (lev h v0 rA xs).
Local Notation levB := (lev g u0 rB ys).
Local Notation QB := (map (fun y => [y]) Y).
Let WA : wf_net A := proj1 SA.
Let WB : wf_net B := proj1 SB.
Let OA := side_out A h v0 rA SA.
Let OB := side_out B g u0 rB SB.
Let DA := side_data A h v0 rA QA xs SA EA AllA.
Let DB := side_data B g u0 rB QB ys SB EB AllB.
Let Hpa := preds_ok A h xs WA OA NDA AllA OrdA FA.
Let Hpb := preds_ok B g ys WB OB NDB AllB OrdB FB.

Lemma step_fill : forall T, fill_table wwd A B xs ys T = Ok (Tab T).
Proof. exact (fill_table_ok wwd w A B h g xs ys WA NDA AllA OrdA FA WB NDB AllB OrdB FB Hw DA DB). Qed.
Lemma step_good : forall T a b, a < na -> b < nb -> good na nb pa pb wd wi ws a b (Tab T a b).
Proof. exact (tab_good w Wm A B h g xs ys WA OA NDA AllA OrdA FA WB OB NDB AllB OrdB FB HWm Hle Hbig). Qed.

Lemma wordB b j : levB b (S j) -> exists y, nth_error Y j = Some y /\ n_data B (arcat ys b) = Some y.
Proof.
  intros L. destruct (lev_word B g u0 rB QB ys EB b j L) as (s & l & v & x & _ & _ & _ & E & I & Ex). rewrite nth_error_map in E. destruct (nth_error Y j) as [y|]; [|discriminate]. cbn in E. injection E as <-.
  destruct I as [->|[]]. eauto.
Qed.

(** Every alignment is a way through the table. *)
Lemma aligned_R : forall S0 Y0 R0 c, aligned w copy null n S0 Y0 R0 c -> forall i j, S0 = firstn i QA -> Y0 = firstn j Y -> i <= length QA -> j <= length Y ->
  exists a b s, levA a i /\ levB b j /\ R na nb pa pb wd wi ws a b c s.
Proof.
  induction 1 as [|S0 Y0 R0 c s x y H IH I|S0 Y0 R0 c s x H IH I|S0 Y0 R0 c y H IH]; intros i j Ei Ej Li Lj.
  - assert (i = 0) by (destruct i; [reflexivity|]; destruct QA; [cbn in Li; lia|discriminate]). assert (j = 0) by (destruct j; [reflexivity|]; destruct Y; [cbn in Lj; lia|discriminate]). subst.
    exists 0, 0, []. split; [apply lev_00; assumption|]. split; [apply lev_00; assumption|constructor].
  - assert (Ki : i = S (length S0)) by (pose proof (f_equal (@length _) Ei) as K; rewrite app_length, firstn_length in K; cbn in K; lia).
    assert (Kj : j = S (length Y0)) by (pose proof (f_equal (@length _) Ej) as K; rewrite app_length, firstn_length in K; cbn in K; lia). subst i j.
    destruct (snoc_firstn _ _ _ _ Ei) as (k & E1 & E2 & _). destruct (snoc_firstn _ _ _ _ Ej) as (l & E3 & E4 & _).
    assert (k = length S0) by (assert (k < length QA) by (apply nth_error_Some; congruence); rewrite E1, firstn_length; lia).
    assert (l = length Y0) by (assert (l < length Y) by (apply nth_error_Some; congruence); rewrite E3, firstn_length; lia). subst k l.
    destruct (IH (length S0) (length Y0) E1 E3 ltac:(lia) ltac:(lia)) as (a' & b' & sc & LA & LB & HR).
    destruct (word_lev A h v0 rA QA xs SA EA AllA _ _ _ E2 I) as (a & LA' & Ex).
    destruct (word_lev B g u0 rB QB ys SB EB AllB (length Y0) [y] y) as (b & LB' & Ey); [rewrite nth_error_map, E4; reflexivity|now left|].
    exists a, b, (sc ++ [(Some a, Some b)]). split; [exact LA'|]. split; [exact LB'|].
    replace (w (Some x) (Some y)) with (ws a b) by (unfold NetDp_Proofs3.ws; rewrite Ex, Ey; reflexivity).
    apply (R_snoc na nb pa pb wd wi ws a' b'); [exact HR|]. pose proof (lev_lt A h v0 rA xs SA FA a _ LA'). pose proof (lev_lt B g u0 rB ys SB FB b _ LB').
    constructor; [lia|lia|apply (lev_preds A h v0 rA xs SA NDA AllA _ _ _ LA'), LA|apply (lev_preds B g u0 rB ys SB NDB AllB _ _ _ LB'), LB].
  - assert (Ki : i = S (length S0)) by (pose proof (f_equal (@length _) Ei) as K; rewrite app_length, firstn_length in K; cbn in K; lia). subst i.
    destruct (snoc_firstn _ _ _ _ Ei) as (k & E1 & E2 & _).
    assert (k = length S0) by (assert (k < length QA) by (apply nth_error_Some; congruence); rewrite E1, firstn_length; lia). subst k.
    destruct (IH (length S0) j E1 Ej ltac:(lia) Lj) as (a' & b & sc & LA & LB & HR).
    destruct (word_lev A h v0 rA QA xs SA EA AllA _ _ _ E2 I) as (a & LA' & Ex).
    exists a, b, (sc ++ [(Some a, None)]). split; [exact LA'|]. split; [exact LB|].
    replace (w (Some x) None) with (wd a) by (unfold NetDp_Proofs3.wd; rewrite Ex; reflexivity).
    apply (R_snoc na nb pa pb wd wi ws a' b); [exact HR|]. pose proof (lev_lt A h v0 rA xs SA FA a _ LA').
    constructor; [lia|apply (lev_preds A h v0 rA xs SA NDA AllA _ _ _ LA'), LA].
  - assert (Kj : j = S (length Y0)) by (pose proof (f_equal (@length _) Ej) as K; rewrite app_length, firstn_length in K; cbn in K; lia). subst j.
    destruct (snoc_firstn _ _ _ _ Ej) as (l & E3 & E4 & _).
    assert (l = length Y0) by (assert (l < length Y) by (apply nth_error_Some; congruence); rewrite E3, firstn_length; lia). subst l.
    destruct (IH i (length Y0) Ei E3 Li ltac:(lia)) as (a & b' & sc & LA & LB & HR).
    destruct (word_lev B g u0 rB QB ys SB EB AllB (length Y0) [y] y) as (b & LB' & Ey); [rewrite nth_error_map, E4; reflexivity|now left|].
    exists a, b, (sc ++ [(None, Some b)]). split; [exact LA|]. split; [exact LB'|].
    replace (w None (Some y)) with (wi b) by (unfold NetDp_Proofs3.wi; rewrite Ey; reflexivity).
    apply (R_snoc na nb pa pb wd wi ws a b'); [exact HR|]. pose proof (lev_lt B g u0 rB ys SB FB b _ LB').
    constructor; [lia|apply (lev_preds B g u0 rB ys SB NDB AllB _ _ _ LB'), LB].
Qed.

Lemma sdata_ext (G G' : net D) r1 s v r2 : saus G (r1 ++ (s, v) :: r2) -> (forall y, y < n_arcs G -> n_data G' y = n_data G y) -> sdata G' r2 = sdata G r2.
Proof.
  intros S0 H. unfold sdata. apply map_ext_in. intros [l u] I. cbn [fst]. apply map_ext_in. intros y Iy. apply H. destruct (In_nth_error _ _ I) as (k & Ek).
  apply (slot_lt G r1 s v r2 S0 (length r1 + S k) l u y); [|exact Iy]. rewrite nth_error_app2 by lia. replace (length r1 + S k - length r1) with (S k) by lia. exact Ek.
Qed.
Lemma rowA_lt i l v y : nth_error RA i = Some (l, v) -> In y l -> y < n_arcs A.
Proof.
  intros E I. assert (L : at_lev RA i y) by (exists l, v; auto). pose proof SA as (_ & t & ST & RW). destruct (lev_from A WA _ _ RW _ _ L) as [_ O]. apply (wf_out A WA y _ O).
Qed.

Lemma back T : forall fuel a b i j s v, a + b <= fuel -> levA a i -> levB b j -> nth_error RA i = Some (s, v) ->
  exists Q, aligned w copy null n (firstn i QA) (firstn j Y) Q (c_min (Tab T a b)) /\
  forall A' v' tail, saus A' (firstn i RA ++ (s, v') :: tail) -> (forall y, y < n_arcs A -> n_data A' y = n_data A y) -> n_arcs A <= n_arcs A' ->
  exists A'' r'', merge_back copy null n B xs ys (Tab T) fuel a b A' = Ok A'' /\ saus A'' r'' /\ sdata A'' r'' = [None] :: map (map Some) Q ++ sdata A' tail.
Proof.
  set (TT := Tab T).
  assert (Z0 : forall fuel s v, nth_error RA 0 = Some (s, v) -> exists Q, aligned w copy null n (firstn 0 QA) (firstn 0 Y) Q (c_min (TT 0 0)) /\
    forall A' v' tail, saus A' (firstn 0 RA ++ (s, v') :: tail) -> (forall y, y < n_arcs A -> n_data A' y = n_data A y) -> n_arcs A <= n_arcs A' ->
    exists A'' r'', merge_back copy null n B xs ys TT fuel 0 0 A' = Ok A'' /\ saus A'' r'' /\ sdata A'' r'' = [None] :: map (map Some) Q ++ sdata A' tail).
  { intros fuel s v E. exists []. destruct (step_good T 0 0 (len_pos h xs FA) (len_pos g ys FB)) as [Ho _]. fold TT in Ho.
    rewrite (isopt_unique _ _ _ _ _ _ _ _ _ _ _ Ho (proj1 (good_00 na nb pa pb wd wi ws))). split; [constructor|]. pose proof E as E'. cbn in E. injection E as <- <-. intros A' v' tail S0 HD HL. exists A', (([h], v') :: tail).
    split; [destruct fuel; reflexivity|]. split; [exact S0|]. unfold sdata. cbn [map fst app]. rewrite HD by (apply (rowA_lt 0 [h] v0); [reflexivity|now left]). rewrite Dh. reflexivity. }
  induction fuel as [|fuel IH]; intros a b i j s v Hf La Lb Es.
  - replace a with 0 in * by lia. replace b with 0 in * by lia. pose proof (lev_uniq A h v0 rA xs SA _ _ _ La (lev_00 h v0 rA xs FA)) as ->. pose proof (lev_uniq B g u0 rB ys SB _ _ _ Lb (lev_00 g u0 rB ys FB)) as ->.
    apply (Z0 0 s v Es).
  - pose proof (proj1 La) as Ha. pose proof (proj1 Lb) as Hb. destruct (step_good T a b Ha Hb) as [Ho Hback]. fold TT in Ho, Hback. destruct Hback as [H0|(a' & b' & wt & e & Ea & Eb & Hm & Ho')].
    + replace a with 0 in * by lia. replace b with 0 in * by lia. pose proof (lev_uniq A h v0 rA xs SA _ _ _ La (lev_00 h v0 rA xs FA)) as ->. pose proof (lev_uniq B g u0 rB ys SB _ _ _ Lb (lev_00 g u0 rB ys FB)) as ->.
      apply (Z0 (S fuel) s v Es).
    + destruct (mv_bounds na nb pa pb wd wi ws Hpa Hpb a' b' a b wt e Hm Ha Hb) as (Ba & Bb & Blt & Bda & Bdb).
      assert (Eo : (c_min (TT a b) = c_min (TT a' b') + wt)%Z).
      { pose proof (isopt_unique _ _ _ _ _ _ _ _ _ _ _ Ho' (proj1 (step_good T a' b' Ba Bb))) as Eq. fold TT in Eq. lia. }
      assert (E00 : (a =? 0) && (b =? 0) = false).
      { destruct (Nat.eqb_spec a 0); [|reflexivity]. destruct (Nat.eqb_spec b 0); [lia|reflexivity]. }
      assert (Epa : points a (c_a (TT a b)) = (a =? a')) by (rewrite Ea; reflexivity).
      assert (Epb : points b (c_b (TT a b)) = (b =? b')) by (rewrite Eb; reflexivity).
      assert (Ia : In (arcat xs a) s).
      { destruct La as [_ (s' & v' & E' & I')]. rewrite Es in E'. injection E' as <- <-. exact I'. }
      apply mv_inv in Hm. destruct Hm as [(-> & B1 & B2 & -> & ->)|[(-> & A1 & A2 & -> & ->)|(A1 & B1 & A2 & B2 & -> & ->)]].
      * (* a new slot *)
        destruct j as [|j]; [pose proof (lev_zero g u0 rB ys NDB FB b Lb); lia|]. pose proof (proj1 (lev_preds B g u0 rB ys SB NDB AllB _ _ _ Lb) B2) as Lb'.
        destruct (wordB b j Lb) as (y & Ey & Dy). destruct (IH a b' i j s v ltac:(pose proof (proj2 (Hpb b B1) _ B2); lia) La Lb' Es) as (Q & HQ & HM).
        exists (Q ++ [copy y :: repeat (copy null) n]). split.
        { rewrite Eo, (firstn_snoc _ _ _ Ey). unfold NetDp_Proofs3.wi. rewrite Dy. apply al_ins, HQ. }
        intros A' v' tail S0 HD HL. destruct (ins_slot_ok copy null A' (firstn i RA) s v' tail (arcat xs a) n (n_data B (arcat ys b)) S0 Ia) as (A1 & w1 & l & EI & S1 & Dl & D1 & L1).
        destruct (HM A1 w1 ((l, v') :: tail) S1) as (A'' & r'' & E2 & S2 & D2); [intros z Hz; rewrite D1 by lia; apply HD, Hz|lia|].
        exists A'', r''. split; [|split; [exact S2|]].
        -- cbn [merge_back]. rewrite E00, !get_ok by assumption. cbn [rbind]. fold TT. rewrite Epa, Nat.eqb_refl, EI, Ea, Eb. exact E2.
        -- rewrite D2. f_equal. rewrite map_app, <- app_assoc. f_equal. unfold sdata at 1. cbn [map fst app]. rewrite Dl, Dy. cbn [dup option_map]. f_equal; [f_equal; symmetry; apply map_rep|].
           apply (sdata_ext A' A1 (firstn i RA) s v' tail S0 D1).
      * (* a null word in the slot *)
        destruct i as [|i]; [pose proof (lev_zero h v0 rA xs NDA FA a La); lia|]. pose proof (proj1 (lev_preds A h v0 rA xs SA NDA AllA _ _ _ La) A2) as La'.
        destruct (lev_word A h v0 rA QA xs EA a i La) as (q & l & v1 & x & E1 & I1 & M1 & N1 & Ix & Dx). cbn in Es. rewrite E1 in Es. injection Es as -> ->.
        destruct (nth_error RA i) as [[s1 v1]|] eqn:E2; [|exfalso; destruct La' as [_ (? & ? & K & _)]; congruence].
        destruct (IH a' b i j s1 v1 ltac:(pose proof (proj2 (Hpa a A1) _ A2); lia) La' Lb E2) as (Q & HQ & HM).
        exists (Q ++ [q ++ [copy null]]). split.
        { rewrite Eo, (firstn_snoc _ _ _ N1). unfold NetDp_Proofs3.wd. rewrite Dx. apply al_del; assumption. }
        intros A' v' tail S0 HD HL. destruct (saus_between A' (firstn (S i) RA) s v' tail (arcat xs a) (dup copy (Some null)) S0 Ia) as (S1 & D1 & O1 & _).
        set (A3 := insert_between A' _ _ _) in *. rewrite (firstn_snoc _ _ _ E2), <- app_assoc in S1. cbn [app] in S1.
        destruct (HM A3 v1 ((s ++ [n_arcs A'], v') :: tail) S1) as (A'' & r'' & E3 & S2 & D2); [intros z Hz; rewrite O1 by lia; apply HD, Hz|unfold A3; cbn [insert_between n_arcs]; lia|].
        exists A'', r''. split; [|split; [exact S2|]].
        -- cbn [merge_back]. rewrite E00, !get_ok by assumption. cbn [rbind]. fold TT. rewrite Epa, Epb, Nat.eqb_refl, Ea, Eb. pose proof (proj2 (Hpa a A1) _ A2). rewrite (proj2 (Nat.eqb_neq a a')) by lia. exact E3.
        -- rewrite D2. f_equal. rewrite map_app, <- app_assoc. f_equal. unfold sdata at 1. cbn [map fst app]. rewrite map_app. cbn [map]. rewrite D1. cbn [dup option_map]. f_equal.
           ++ rewrite map_app, <- M1. f_equal. apply map_ext_in. intros y Iy. rewrite O1, HD; [reflexivity| |]; pose proof (rowA_lt (S i) s v y E1 Iy); lia.
           ++ apply (sdata_ext A' A3 (firstn (S i) RA) s v' tail S0 O1).
      * (* a word in the slot *)
        destruct i as [|i]; [pose proof (lev_zero h v0 rA xs NDA FA a La); lia|]. pose proof (proj1 (lev_preds A h v0 rA xs SA NDA AllA _ _ _ La) A2) as La'.
        destruct j as [|j]; [pose proof (lev_zero g u0 rB ys NDB FB b Lb); lia|]. pose proof (proj1 (lev_preds B g u0 rB ys SB NDB AllB _ _ _ Lb) B2) as Lb'.
        destruct (wordB b j Lb) as (y & Ey & Dy).
        destruct (lev_word A h v0 rA QA xs EA a i La) as (q & l & v1 & x & E1 & I1 & M1 & N1 & Ix & Dx). cbn in Es. rewrite E1 in Es. injection Es as -> ->.
        destruct (nth_error RA i) as [[s1 v1]|] eqn:E2; [|exfalso; destruct La' as [_ (? & ? & K & _)]; congruence].
        pose proof (proj2 (Hpa a A1) _ A2) as Lta. pose proof (proj2 (Hpb b B1) _ B2) as Ltb.
        destruct (IH a' b' i j s1 v1 ltac:(lia) La' Lb' E2) as (Q & HQ & HM).
        exists (Q ++ [q ++ [copy y]]). split.
        { rewrite Eo, (firstn_snoc _ _ _ N1), (firstn_snoc _ _ _ Ey). unfold NetDp_Proofs3.ws. rewrite Dx, Dy. apply al_sub; assumption. }
        intros A' v' tail S0 HD HL. destruct (saus_between A' (firstn (S i) RA) s v' tail (arcat xs a) (dup copy (n_data B (arcat ys b))) S0 Ia) as (S1 & D1 & O1 & _).
        set (A3 := insert_between A' _ _ _) in *. rewrite (firstn_snoc _ _ _ E2), <- app_assoc in S1. cbn [app] in S1.
        destruct (HM A3 v1 ((s ++ [n_arcs A'], v') :: tail) S1) as (A'' & r'' & E3 & S2 & D2); [intros z Hz; rewrite O1 by lia; apply HD, Hz|unfold A3; cbn [insert_between n_arcs]; lia|].
        exists A'', r''. split; [|split; [exact S2|]].
        -- cbn [merge_back]. rewrite E00, !get_ok by assumption. cbn [rbind]. fold TT. rewrite Epa, Epb, Ea, Eb. rewrite (proj2 (Nat.eqb_neq a a')), (proj2 (Nat.eqb_neq b b')) by lia. exact E3.
        -- rewrite D2. f_equal. rewrite map_app, <- app_assoc. f_equal. unfold sdata at 1. cbn [map fst app]. rewrite map_app. cbn [map]. rewrite D1, Dy. cbn [dup option_map]. f_equal.
           ++ rewrite map_app, <- M1. f_equal. apply map_ext_in. intros z Iz. rewrite O1, HD; [reflexivity| |]; pose proof (rowA_lt (S i) s v z E1 Iz); lia.
           ++ apply (sdata_ext A' A3 (firstn (S i) RA) s v' tail S0 O1).
Qed.

Lemma step_create T : exists A' w' h' r' Q, create_aligned copy null n A B xs ys (Tab T) = Ok A' /\ saus A' (([h'], w') :: r') /\ n_data A' h' = None /\
  sdata A' r' = map (map Some) Q /\ cheapest w copy null n QA Y Q.
Proof.
  pose proof SA as (_ & ta & STA & RWA). pose proof SB as (_ & tb & STB & RWB).
  destruct (find_end_ok w Wm A B h g xs ys WA OA NDA AllA OrdA FA WB OB NDB AllB OrdB FB HWm Hle Hbig ta tb STA STB T) as (a & b & E & (Ha & Hb & Ia & Ib) & Hmin).
  unfold create_aligned. rewrite E. cbn [rbind snd].
  pose proof (proj1 (lev_stop A h v0 rA QA xs SA EA ta a STA Ha) Ia) as La. pose proof (proj1 (lev_stop B g u0 rB QB ys SB EB tb b STB Hb) Ib) as Lb. rewrite map_length in Lb.
  pose proof (side_len A rA QA EA) as LR.
  destruct (nth_error RA (length QA)) as [[s v]|] eqn:Es; [|apply nth_error_None in Es; cbn in Es; lia].
  destruct (back T (na + nb) a b _ _ s v ltac:(lia) La Lb Es) as (Q & HQ & HM). rewrite !firstn_all in HQ.
  assert (EL : firstn (length QA) RA ++ [(s, v)] = RA) by (rewrite <- (firstn_snoc _ _ _ Es), <- LR; exact (firstn_all RA)).
  destruct (HM A v []) as (A' & r' & E1 & S1 & D1); [rewrite EL; exact SA|auto|lia|].
  destruct r' as [|[l w'] r']; [discriminate|]. unfold sdata in D1. cbn [map fst] in D1. injection D1 as D1 D2. rewrite app_nil_r in D2. destruct l as [|h' [|? ?]]; try discriminate. injection D1 as D1.
  exists A', w', h', r', Q. split; [exact E1|]. split; [exact S1|]. split; [exact D1|]. split; [exact D2|]. exists (c_min (Tab T a b)). split; [exact HQ|].
  intros R' c' HR'. destruct (aligned_R _ _ _ _ HR' (length QA) (length Y)) as (a' & b' & sc & La' & Lb' & HR); [symmetry; apply firstn_all|symmetry; apply firstn_all|lia|lia|].
  assert (LP : last_pair A B xs ys ta tb a' b').
  { split; [apply La'|]. split; [apply Lb'|]. split; [apply (lev_stop A h v0 rA QA xs SA EA ta a' STA (proj1 La')), La'|].
    apply (lev_stop B g u0 rB QB ys SB EB tb b' STB (proj1 Lb')). rewrite map_length. exact Lb'. }
  specialize (Hmin a' b' LP). destruct (step_good T a' b' (proj1 La') (proj1 Lb')) as [[_ Ho] _]. specialize (Ho _ _ HR). lia.
Qed.
End Step.
