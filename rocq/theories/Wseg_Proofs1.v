(** The arcs that are added. *)
From Coq Require Import List NArith ZArith Arith Bool Lia.
From Verif Require Import Base Net_Model Net_Spec Net_Proofs1 Net_Proofs2 Net_Proofs3 Net_Thm Anet_Model Cnet_Proofs1 Wseg_Model.
Import ListNotations.
Local Open Scope res_scope.

Section Connect.
Context {D : Type}.
Variable append : D -> D -> res D.
Variable test : D -> res bool.
Variable Good : D -> Prop.
Hypothesis GA : forall a b, Good a -> Good b -> exists d, append a b = Ok d /\ Good d.
Hypothesis GT : forall d, Good d -> exists b, test d = Ok b.
Variable G0 : net D.
Hypothesis W0 : wf_net G0.
Hypothesis D0 : forall u x, In x (n_out G0 u) -> exists d, n_data G0 x = Some d /\ Good d.

(** What words in a row become, appended in any order. *)
Inductive J : list D -> D -> Prop :=
| J1 : forall d, J [d] d
| J2 : forall l1 l2 d1 d2 d, J l1 d1 -> J l2 d2 -> append d1 d2 = Ok d -> J (l1 ++ l2) d.
Fixpoint lfold (v : D) (l : list D) : res D :=
  match l with [] => Ok v | a :: r => let* v' := append v a in lfold v' r end.
Lemma J_length l d : J l d -> 1 <= length l.
Proof. induction 1; [cbn; lia|rewrite app_length; lia]. Qed.

Definition spells (u t : nat) (ds : list D) : Prop := exists xs, npath G0 u xs t /\ map (n_data G0) xs = map Some ds.

Definition rk (r : nat -> nat) : Prop := forall x u, In x (n_out G0 u) -> r u < r (n_to G0 x).
Lemma spells_rank r u t ds : rk r -> spells u t ds -> r u + length ds <= r t.
Proof.
  intros R (xs & P & E). assert (L : length ds = length xs) by (rewrite <- (map_length Some ds), <- E; apply map_length). rewrite L.
  clear E L ds. induction P as [u|u x xs v Hx P IH]; [cbn; lia|]. specialize (R x u Hx). cbn [length]. lia.
Qed.
Lemma spells_app a b c ds es : spells a b ds -> spells b c es -> spells a c (ds ++ es).
Proof.
  intros (xs & P & E) (ys & Q & F). exists (xs ++ ys). split; [apply (npath_app G0 a xs b ys c P Q)|]. rewrite !map_app. congruence.
Qed.

Record Inv (G : net D) : Prop := {
  v_wf : wf_net G;
  v_nodes : n_nodes G = n_nodes G0; v_start : n_start G = n_start G0; v_stop : n_stop G = n_stop G0; v_arcs : n_arcs G0 <= n_arcs G;
  v_old : forall x, x < n_arcs G0 -> n_from G x = n_from G0 x /\ n_to G x = n_to G0 x /\ n_data G x = n_data G0 x;
  v_out : forall u x, In x (n_out G0 u) -> In x (n_out G u);
  v_new : forall u x, In x (n_out G u) -> In x (n_out G0 u) \/
    exists d ds, n_data G x = Some d /\ Good d /\ spells u (n_to G x) ds /\ J ds d /\ 2 <= length ds /\ test d = Ok true }.
Record ext (G G' : net D) : Prop := {
  x_arcs : n_arcs G <= n_arcs G';
  x_same : forall x, x < n_arcs G -> n_from G' x = n_from G x /\ n_to G' x = n_to G x /\ n_data G' x = n_data G x;
  x_out : forall u, exists l, n_out G' u = n_out G u ++ l }.
Lemma ext_refl G : ext G G.
Proof. constructor; [lia|auto|intros u; exists []; rewrite app_nil_r; reflexivity]. Qed.
Lemma ext_trans A B C : ext A B -> ext B C -> ext A C.
Proof.
  intros H K. constructor.
  - pose proof (x_arcs _ _ H). pose proof (x_arcs _ _ K). lia.
  - intros x Hx. destruct (x_same _ _ H x Hx) as (A1 & A2 & A3). pose proof (x_arcs _ _ H) as L. destruct (x_same _ _ K x ltac:(lia)) as (B1 & B2 & B3). repeat split; congruence.
  - intros u. destruct (x_out _ _ H u) as (l & E). destruct (x_out _ _ K u) as (m & F). exists (l ++ m). rewrite F, E, app_assoc. reflexivity.
Qed.
Lemma Inv0 : Inv G0.
Proof. constructor; auto. Qed.
Lemma old_arc u x : In x (n_out G0 u) -> x < n_arcs G0.
Proof. intros H. apply (wf_out G0 W0 x u H). Qed.

Lemma arc_spells G u x : Inv G -> In x (n_out G u) -> exists d ds, n_data G x = Some d /\ Good d /\ spells u (n_to G x) ds /\ J ds d.
Proof.
  intros V Hx. destruct (v_new G V u x Hx) as [H|(d & ds & A & B & C & E & _)]; [|eauto 8].
  destruct (D0 u x H) as (d & DX & GD). destruct (v_old G V x (old_arc u x H)) as (_ & T & DD). exists d, [d]. rewrite DD, T. split; [exact DX|]. split; [exact GD|].
  split; [|constructor]. exists [x]. split; [econstructor; [exact H|constructor]|]. cbn. rewrite DX. reflexivity.
Qed.
Lemma arc_rank G r u x : Inv G -> rk r -> In x (n_out G u) -> r u < r (n_to G x).
Proof.
  intros V R Hx. destruct (arc_spells G u x V Hx) as (d & ds & _ & _ & S & J0). pose proof (spells_rank r _ _ _ R S). pose proof (J_length _ _ J0). lia.
Qed.

Section Base.
Variables (base u0 : nat).
Hypothesis HB : In base (n_out G0 u0).

Lemma base_from G : Inv G -> n_from G base = u0.
Proof. intros V. destruct (v_old G V base (old_arc u0 base HB)) as (F & _). rewrite F. apply (wf_out G0 W0 base u0 HB). Qed.

Lemma insert_ok G u x d ds : Inv G -> In x (n_out G u) -> spells u0 (n_to G x) ds -> J ds d -> Good d -> 2 <= length ds -> test d = Ok true ->
  let G1 := insert_between G u0 (n_to G x) (Some d) in
  Inv G1 /\ ext G G1 /\ (forall w, w <> u0 -> n_out G1 w = n_out G w) /\ In (n_arcs G) (n_out G1 u0) /\ n_to G1 (n_arcs G) = n_to G x /\ n_data G1 (n_arcs G) = Some d.
Proof.
  intros V Hx SP JD GD L2 TD G1. pose proof (v_wf G V) as W. destruct (wf_rank G0 W0) as (r & R).
  assert (BO : forall w, n_out G1 w = if w =? u0 then n_out G u0 ++ [n_arcs G] else n_out G w) by (intros w; apply btw_out; [exact W|apply (wf_out G W x u Hx)]).
  assert (LT : forall w y, In y (n_out G w) -> y < n_arcs G) by (intros w y H; apply (wf_out G W y w H)).
  assert (E : ext G G1).
  { constructor; [unfold G1; cbn; lia| |].
    - intros y Hy. unfold G1. cbn. rewrite !fupd_other by lia. auto.
    - intros w. rewrite BO. destruct (Nat.eqb_spec w u0) as [->|]; [exists [n_arcs G]; reflexivity|exists []; rewrite app_nil_r; reflexivity]. }
  split; [|split; [exact E|split; [|split; [|split]]]].
  - constructor.
    + apply btw_wf; [exact W| | | |].
      * destruct (wf_reach G W base u0 (v_out G V _ _ HB)) as (xs & P). eauto.
      * exact (wf_coreach G W x u Hx).
      * apply (wf_out G W x u Hx).
      * exists r. split; [intros y w H; exact (arc_rank G r w y V R H)|]. pose proof (spells_rank r _ _ _ R SP). lia.
    + exact (v_nodes G V).
    + exact (v_start G V).
    + exact (v_stop G V).
    + pose proof (v_arcs G V). unfold G1. cbn. lia.
    + intros y Hy. destruct (v_old G V y Hy) as (A1 & A2 & A3). destruct (x_same _ _ E y) as (B1 & B2 & B3); [pose proof (v_arcs G V); lia|]. repeat split; congruence.
    + intros w y H. destruct (x_out _ _ E w) as (l & ->). apply in_app_iff. left. exact (v_out G V w y H).
    + intros w y H. rewrite BO in H. assert (CASE : In y (n_out G w) \/ (w = u0 /\ y = n_arcs G)).
      { destruct (Nat.eqb_spec w u0) as [->|]; [apply in_app_iff in H; destruct H as [H|[H|[]]]; auto|auto]. }
      destruct CASE as [K|(-> & ->)].
      * destruct (v_new G V w y K) as [O|(d' & ds' & A1 & A2 & A3 & A4 & A5 & A6)]; [left; exact O|right]. destruct (x_same _ _ E y (LT w y K)) as (_ & B2 & B3).
        exists d', ds'. rewrite B2, B3. auto 8.
      * right. exists d, ds. assert (T1 : n_to G1 (n_arcs G) = n_to G x) by (unfold G1; cbn; apply fupd_same). rewrite T1.
        split; [unfold G1; cbn; apply fupd_same|]. auto 8.
  - intros w Hw. rewrite BO. destruct (Nat.eqb_spec w u0); [congruence|reflexivity].
  - rewrite BO, Nat.eqb_refl. apply in_app_iff. right. left. reflexivity.
  - unfold G1. cbn. apply fupd_same.
  - unfold G1. cbn. apply fupd_same.
Qed.

Definition complete (G' : net D) (u : nat) (v : D) (k : nat) : Prop := forall t ds d,
  spells u t ds -> 1 <= length ds <= k -> lfold v ds = Ok d -> test d = Ok true -> exists x, In x (n_out G' u0) /\ n_to G' x = t /\ n_data G' x = Some d.
Lemma complete_ext G G' u v k : wf_net G -> ext G G' -> complete G u v k -> complete G' u v k.
Proof.
  intros W E C t ds d S L F T. destruct (C t ds d S L F T) as (x & A1 & A2 & A3). destruct (x_same _ _ E x) as (_ & B2 & B3); [apply (wf_out G W x u0 A1)|].
  exists x. destruct (x_out _ _ E u0) as (l & ->). rewrite in_app_iff, B2, B3. auto.
Qed.

Lemma connect_ok k : forall G u v ds, Inv G -> spells u0 u ds -> J ds v -> Good v ->
  exists G', connect append test k base G u v = Ok G' /\ Inv G' /\ ext G G' /\ (forall w, w <> u0 -> n_out G' w = n_out G w) /\ complete G' u v k.
Proof.
  destruct (wf_rank G0 W0) as (r & R).
  induction k as [|k IH]; intros G u v ds V SP JV GV.
  { exists G. split; [reflexivity|]. split; [exact V|]. split; [apply ext_refl|]. split; [reflexivity|]. intros t es d _ L. lia. }
  assert (NE : u <> u0). { pose proof (spells_rank r _ _ _ R SP). pose proof (J_length _ _ JV). intros ->. lia. }
  assert (LOOP : forall fuel G1 x pre post, Inv G1 -> ext G G1 -> (forall w, w <> u0 -> n_out G1 w = n_out G w) -> n_out G1 u = pre ++ x :: post -> length post < fuel ->
    (forall y, In y pre -> In y (n_out G0 u) -> forall t es d, spells (n_to G0 y) t es -> length es <= k -> (exists a, n_data G0 y = Some a /\ lfold v (a :: es) = Ok d) -> test d = Ok true ->
        exists z, In z (n_out G1 u0) /\ n_to G1 z = t /\ n_data G1 z = Some d) ->
    exists G', connect_loop append test (connect append test k base) base u v fuel G1 x = Ok G' /\ Inv G' /\ ext G G' /\ (forall w, w <> u0 -> n_out G' w = n_out G w) /\
    (forall y, In y (pre ++ x :: post) -> In y (n_out G0 u) -> forall t es d, spells (n_to G0 y) t es -> length es <= k -> (exists a, n_data G0 y = Some a /\ lfold v (a :: es) = Ok d) -> test d = Ok true ->
        exists z, In z (n_out G' u0) /\ n_to G' z = t /\ n_data G' z = Some d)).
  { induction fuel as [|f IHf]; intros G1 x pre post V1 E1 O1 EO LP CP; [lia|]. cbn [connect_loop].
    assert (Hx : In x (n_out G1 u)) by (rewrite EO; apply in_app_iff; right; left; reflexivity).
    destruct (arc_spells G1 u x V1 Hx) as (d & es & DX & GD & SX & JX). rewrite DX.
    destruct (GA v d GV GD) as (nd & EA & GN). rewrite EA. cbn [rbind]. destruct (GT nd GN) as (b & ET). rewrite ET. cbn [rbind]. rewrite (base_from G1 V1).
    assert (SN : spells u0 (n_to G1 x) (ds ++ es)) by (eapply spells_app; eauto).
    assert (JN : J (ds ++ es) nd) by (econstructor; eauto).
    assert (L2 : 2 <= length (ds ++ es)). { rewrite app_length. pose proof (J_length _ _ JV). pose proof (J_length _ _ JX). lia. }
    set (G2 := if b then insert_between G1 u0 (n_to G1 x) (Some nd) else G1).
    assert (S2 : Inv G2 /\ ext G1 G2 /\ (forall w, w <> u0 -> n_out G2 w = n_out G1 w) /\ (test nd = Ok true -> exists z, In z (n_out G2 u0) /\ n_to G2 z = n_to G1 x /\ n_data G2 z = Some nd)).
    { unfold G2. destruct b.
      - destruct (insert_ok G1 u x nd (ds ++ es) V1 Hx SN JN GN L2 ET) as (A1 & A2 & A3 & A4 & A5 & A6). split; [exact A1|]. split; [exact A2|]. split; [exact A3|]. intros _. eauto.
      - split; [exact V1|]. split; [apply ext_refl|]. split; [reflexivity|]. intros K. congruence. }
    destruct S2 as (V2 & E2 & O2 & C2).
    assert (TX : n_to G2 x = n_to G1 x) by (apply (x_same _ _ E2); apply (wf_out G1 (v_wf _ V1) x u Hx)).
    destruct (IH G2 (n_to G2 x) nd (ds ++ es) V2) as (G3 & E3 & V3 & X3 & O3 & C3); [rewrite TX; exact SN|exact JN|exact GN|]. rewrite E3. cbn [rbind].
    assert (O3' : n_out G3 u = pre ++ x :: post) by (rewrite O3, O2 by exact NE; exact EO).
    assert (X13 : ext G1 G3) by (eapply ext_trans; eassumption).
    assert (CX : forall y, In y (pre ++ [x]) -> In y (n_out G0 u) -> forall t es d, spells (n_to G0 y) t es -> length es <= k -> (exists a, n_data G0 y = Some a /\ lfold v (a :: es) = Ok d) -> test d = Ok true ->
        exists z, In z (n_out G3 u0) /\ n_to G3 z = t /\ n_data G3 z = Some d).
    { intros y Hy HO t es' d' S' L' (a & DA & LF) T'. apply in_app_iff in Hy. destruct Hy as [Hy|[<-|[]]].
      - destruct (CP y Hy HO t es' d' S' L' (ex_intro _ a (conj DA LF)) T') as (z & A1 & A2 & A3). destruct (x_same _ _ X13 z) as (_ & B2 & B3); [apply (wf_out G1 (v_wf _ V1) z u0 A1)|].
        exists z. destruct (x_out _ _ X13 u0) as (l & ->). rewrite in_app_iff, B2, B3. auto.
      - destruct (v_old G1 V1 x (old_arc u x HO)) as (_ & TO & DO). rewrite DO, DA in DX. injection DX as ->. cbn [lfold] in LF. rewrite EA in LF. cbn [rbind] in LF.
        destruct es' as [|a' es'].
        + cbn [lfold] in LF. injection LF as <-. destruct (C2 T') as (z & A1 & A2 & A3). destruct (x_same _ _ X3 z) as (_ & B2 & B3); [apply (wf_out G2 (v_wf _ V2) z u0 A1)|].
          exists z. destruct (x_out _ _ X3 u0) as (l & ->). rewrite in_app_iff, B2, B3. split; [auto|]. split; [|exact A3]. rewrite A2, TO.
          destruct S' as (xs & P & EM). destruct xs; [inversion P; reflexivity|discriminate].
        + apply (C3 t (a' :: es') d'); [rewrite TX, TO; exact S'|cbn [length] in *; lia|exact LF|exact T']. }
    rewrite O3', next_mid by (rewrite <- O3'; apply (wf_nd_out G3 (v_wf _ V3))).
    destruct post as [|y post]; cbn [hd_error].
    - exists G3. split; [reflexivity|]. split; [exact V3|]. split; [eapply ext_trans; eassumption|]. split; [intros w Hw; rewrite O3, O2, O1 by exact Hw; reflexivity|]. exact CX.
    - destruct (IHf G3 y (pre ++ [x]) post V3) as (G' & EL & VL & XL & OL & CL).
      + eapply ext_trans; eassumption.
      + intros w Hw. rewrite O3, O2, O1 by exact Hw. reflexivity.
      + rewrite O3', <- app_assoc. reflexivity.
      + cbn [length] in LP. lia.
      + exact CX.
      + exists G'. split; [exact EL|]. split; [exact VL|]. split; [exact XL|]. split; [exact OL|]. intros z Hz. apply CL. rewrite <- app_assoc. exact Hz. }
  cbn [connect]. destruct (n_out G u) as [|x post] eqn:EO.
  - exists G. split; [reflexivity|]. split; [exact V|]. split; [apply ext_refl|]. split; [reflexivity|]. intros t es d (xs & P & EM) L. destruct xs as [|x xs].
    + destruct es; [cbn in L; lia|discriminate].
    + inversion P; subst. exfalso. pose proof (v_out G V u x) as K. rewrite EO in K. apply K. assumption.
  - destruct (LOOP (S (n_arcs G)) G x [] post V (ext_refl G)) as (G' & E & V' & X' & O' & C'); [reflexivity|exact EO| |intros y []|].
    + assert (K : length (x :: post) <= length (seq 0 (n_arcs G))); [|rewrite seq_length in K; cbn [length] in K; lia].
      apply NoDup_incl_length; [rewrite <- EO; apply (wf_nd_out G (v_wf G V))|]. intros y Hy. rewrite <- EO in Hy. apply in_seq. pose proof (wf_out G (v_wf G V) y u Hy). lia.
    + exists G'. split; [exact E|]. split; [exact V'|]. split; [exact X'|]. split; [exact O'|].
      intros t es d (xs & P & EM) L LF T. destruct xs as [|y xs]; [destruct es; [cbn in L; lia|discriminate]|]. destruct es as [|a es]; [discriminate|]. cbn [map] in EM. injection EM as DA EM. inversion P; subst.
      apply (C' y) with (es := es); [|assumption|exists xs; auto|cbn [length] in L; lia|exists a; auto|exact T]. cbn [app]. rewrite <- EO. apply (v_out G V). assumption.
Qed.
End Base.

Lemma connect_all_ok k : forall xs G, Inv G -> (forall x, In x xs -> exists u, In x (n_out G0 u)) ->
  exists G', connect_all append test (S k) G xs = Ok G' /\ Inv G' /\ ext G G' /\
    forall x u, In x xs -> In x (n_out G0 u) -> forall t ds d, spells (n_to G0 x) t ds -> 1 <= length ds <= k -> (exists a, n_data G0 x = Some a /\ lfold a ds = Ok d) -> test d = Ok true ->
      exists z, In z (n_out G' u) /\ n_to G' z = t /\ n_data G' z = Some d.
Proof.
  induction xs as [|x xs IH]; intros G V HX.
  - exists G. split; [reflexivity|]. split; [exact V|]. split; [apply ext_refl|]. intros x u [].
  - destruct (HX x (or_introl eq_refl)) as (u & HO). destruct (D0 u x HO) as (a & DA & GD). destruct (v_old G V x (old_arc u x HO)) as (_ & TO & DO).
    cbn [connect_all]. unfold connect_arc. rewrite DO, DA. rewrite Nat.sub_succ, Nat.sub_0_r.
    destruct (connect_ok x u HO k G (n_to G x) a [a] V) as (G1 & E1 & V1 & X1 & _ & C1); [|constructor|exact GD|].
    { exists [x]. rewrite TO. split; [econstructor; [exact HO|constructor]|]. cbn. rewrite DA. reflexivity. }
    rewrite E1. cbn [rbind]. destruct (IH G1 V1) as (G' & E' & V' & X' & C'); [intros y Hy; apply HX; right; exact Hy|].
    exists G'. split; [exact E'|]. split; [exact V'|]. split; [eapply ext_trans; eassumption|].
    intros y w Hy HO' t ds d S L (a' & DA' & LF) T. destruct Hy as [<-|Hy]; [|eapply C'; eauto].
    assert (w = u) as -> by (destruct (wf_out G0 W0 x w HO') as (F1 & _); destruct (wf_out G0 W0 x u HO) as (F2 & _); congruence).
    rewrite DA in DA'. injection DA' as <-. rewrite TO in C1. exact (complete_ext u G1 G' (n_to G0 x) a k (v_wf _ V1) X' C1 t ds d S L LF T).
Qed.

(** The network with the added arcs: its arcs are those there were, and the others come from paths. *)
Lemma fully_connect_ok k : exists G', fully_connect append test (S k) G0 = Ok G' /\ Inv G' /\
  forall u t a ds d, spells u t (a :: ds) -> 1 <= length ds <= k -> lfold a ds = Ok d -> test d = Ok true -> exists z, In z (n_out G' u) /\ n_to G' z = t /\ n_data G' z = Some d.
Proof.
  unfold fully_connect. destruct (C56_traversal_visits_every_arc_once D Breadth G0 (S (n_nodes G0)) W0 ltac:(lia)) as (xs & E & _ & HX). rewrite E. cbn [rbind].
  destruct (connect_all_ok k xs G0 Inv0) as (G' & E' & V' & _ & C'); [intros x H; apply HX, H|]. exists G'. split; [exact E'|]. split; [exact V'|].
  intros u t a ds d (ys & P & EM) L LF T. destruct ys as [|y ys]; [discriminate|]. cbn [map] in EM. injection EM as DA EM. inversion P; subst.
  apply (C' y u) with (ds := ds); [apply HX; eauto|assumption|exists ys; auto|exact L|eauto|exact T].
Qed.
End Connect.
