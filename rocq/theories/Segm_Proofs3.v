From Coq Require Import List ZArith NArith Arith Bool Lia Permutation.
From Verif Require Import Base Store_Model Store_Proofs Segm_Model Segm_Spec Segm_Proofs Segm_Proofs2.
Import ListNotations.
Local Open Scope Z_scope.

Section Run.
  Variables (set hyps : list speech).
  Hypothesis OK : set_ok set.

  Definition here (src ch : str) (T : Z) : list rseg :=
    filter (fun s => at_place src ch s && (T <? r_end s)) (concat set).
  Definition there (ps : list (str * str)) : list rseg :=
    flat_map (fun p => filter (at_place (fst p) (snd p)) (concat set)) ps.
  Definition rem (st : seg_state) (T : Z) : list rseg := here (g_src st) (g_ch st) T ++ there (pend st).

  Definition made (g : group) : Prop :=
    group_ok g /\ gp_hyps g = select (gp_from g) (gp_to g) (gp_src g) (gp_ch g) hyps /\
    gp_refs g = select (gp_from g) (gp_to g) (gp_src g) (gp_ch g) set.
  Definition placed (st : seg_state) (T : Z) (g : group) : Prop :=
    (gp_src g = g_src st /\ gp_ch g = g_ch st /\ T <= gp_from g) \/ In (gp_src g, gp_ch g) (pend st).

  Lemma here_nil : forall src ch T, (forall s, at_pl set src ch s -> r_end s <= T) -> here src ch T = [].
  Proof.
    intros src ch T H. unfold here. rewrite (filter_ext_in _ (fun _ => false)).
    - clear. induction (concat set); [reflexivity|assumption].
    - intros s I. destruct (at_place src ch s) eqn:P; [|reflexivity]. cbn [andb]. apply Z.ltb_ge. apply H. split; assumption.
  Qed.
  Lemma here_zero : forall src ch, here src ch 0 = filter (at_place src ch) (concat set).
  Proof.
    intros src ch. unfold here. apply filter_ext_in. intros s I. apply (set_ok_in _ _ OK) in I. unfold seg_ok in I.
    replace (0 <? r_end s) with true by (symmetry; apply Z.ltb_lt; lia). apply andb_true_r.
  Qed.

  Lemma run_groups : forall fuel st T, inv set st -> 0 <= T ->
    g_cur st = first_segment T (g_src st) (g_ch st) set ->
    (forall s, at_pl set (g_src st) (g_ch st) s -> T < r_end s -> T <= r_start s) ->
    g_cur st <> None -> (length (rem st T) < fuel)%nat ->
    exists gs st', all_groups fuel st set hyps = Ok (gs, st') /\ g_refs st' = g_refs st /\ g_srcs st' = [] /\
      Permutation (concat (map group_segs gs)) (rem st T) /\ Forall made gs /\ Forall (placed st T) gs /\
      ForallOrdPairs in_order gs.
  Proof.
    induction fuel as [|f IH]; intros st T V HT EC C4 NC F; [lia|].
    cbn [all_groups]. destruct (g_cur st) as [c|] eqn:CUR; [|contradiction].
    unfold next_group. rewrite CUR.
    pose proof (first_segment_spec set T (g_src st) (g_ch st) HT OK) as FS. rewrite <- EC in FS.
    destruct FS as (C1 & C2 & C3).
    destruct (last_spec set (g_src st) (g_ch st) c T OK C2 C3 (S (count_segs set)) c) as (l & EL & L1 & L2).
    { apply reach_c; assumption. }
    { pose proof (later_bound set (g_src st) (g_ch st) c). lia. }
    rewrite EL. cbn [rbind].
    assert (LP : 0 <= r_end l).
    { destruct L1 as ([I _] & _). apply (set_ok_in _ _ OK) in I. unfold seg_ok in I. lia. }
    assert (TL : T < r_end l) by (destruct L1 as (_ & LB & _); lia).
    destruct (advance_cases set OK st (r_end l) V LP) as (st' & EA & RA & CASES). rewrite EA. cbn [rbind].
    set (g := {| gp_src := g_src st; gp_ch := g_ch st; gp_from := r_start c; gp_to := r_end l;
                 gp_refs := select (r_start c) (r_end l) (g_src st) (g_ch st) set;
                 gp_hyps := select (r_start c) (r_end l) (g_src st) (g_ch st) hyps |}).
    assert (GM : made g).
    { split; [|split; reflexivity]. eapply group_is_ok; eassumption. }
    assert (CT : T <= r_start c) by (apply C4; assumption).
    assert (GS : group_segs g = filter (fun s => at_place (g_src st) (g_ch st) s && ((T <? r_end s) && (r_end s <=? r_end l))) (concat set)).
    { unfold group_segs. cbn [g gp_refs]. apply group_filter; assumption. }
    assert (PERM : Permutation (group_segs g ++ here (g_src st) (g_ch st) (r_end l)) (here (g_src st) (g_ch st) T)).
    { rewrite GS. unfold here. rewrite perm_filter_split.
      - rewrite (filter_ext_in _ (fun s => at_place (g_src st) (g_ch st) s && (T <? r_end s))); [reflexivity|].
        intros s _. destruct (at_place _ _ s); [|reflexivity]. cbn [andb].
        destruct (T <? r_end s) eqn:E1; destruct (r_end s <=? r_end l) eqn:E2; destruct (r_end l <? r_end s) eqn:E3; try reflexivity; exfalso;
          repeat match goal with
                 | H : (_ <? _) = true |- _ => apply Z.ltb_lt in H
                 | H : (_ <? _) = false |- _ => apply Z.ltb_ge in H
                 | H : (_ <=? _) = true |- _ => apply Z.leb_le in H
                 | H : (_ <=? _) = false |- _ => apply Z.leb_gt in H
                 end; lia.
      - intros s _ H. apply andb_prop in H as [_ H]. apply andb_prop in H as [_ H]. apply Z.leb_le in H.
        apply andb_false_iff. right. apply Z.ltb_ge. lia. }
    assert (GN : (0 < length (group_segs g))%nat).
    { destruct GM as [(_ & (s & I & _) & _) _]. destruct (group_segs g); [destruct I|cbn [length]; lia]. }
    assert (GP : placed st T g) by (left; cbn [g gp_src gp_ch gp_from]; auto).
    assert (LEN : length (here (g_src st) (g_ch st) T) = (length (group_segs g) + length (here (g_src st) (g_ch st) (r_end l)))%nat).
    { rewrite <- (Permutation_length PERM), app_length. reflexivity. }
    pose proof (v_nodup _ _ V) as ND. inversion ND as [|? ? ND1 ND2]; subst.
    destruct CASES as [(N & K1 & K2 & K3 & K4 & K5)|[(N & K1 & K2 & K3)|(N & K1 & K2 & K3 & K4)]].
    - (* another group at this place *)
      destruct (IH st' (r_end l) K5 LP) as (gs & st'' & E & R1 & R2 & P & M & PL & O).
      { rewrite K1, K2, K3. reflexivity. }
      { rewrite K2, K3. exact L2. }
      { rewrite K1. exact N. }
      { unfold rem in *. rewrite K2, K3, K4. rewrite app_length in *. lia. }
      exists (g :: gs), st''. rewrite E. cbn [rbind]. split; [reflexivity|]. split; [congruence|]. split; [exact R2|].
      split; [|split; [|split]].
      + cbn [map concat]. rewrite P. unfold rem. rewrite K2, K3, K4, app_assoc. apply Permutation_app_tail. exact PERM.
      + constructor; assumption.
      + constructor; [exact GP|]. eapply Forall_impl; [|exact PL]. intros h [(H1 & H2 & H3)|H]; [left|right].
        * split; [congruence|]. split; [congruence|]. lia.
        * rewrite <- K4. exact H.
      + constructor; [|exact O]. eapply Forall_impl; [|exact PL]. intros h [(H1 & H2 & H3)|H] Q1 Q2.
        * cbn [g gp_to]. exact H3.
        * exfalso. cbn [g gp_src gp_ch] in Q1, Q2. apply ND1. rewrite Q1, Q2, <- K4. exact H.
    - (* the end *)
      exists [g], st'. destruct f as [|f]; cbn [all_groups]; rewrite K2; cbn [rbind].
      all: split; [reflexivity|]; split; [exact RA|]; split; [exact K3|].
      all: pose proof (first_segment_spec set (r_end l) (g_src st) (g_ch st) LP OK) as FS; rewrite N in FS.
      all: split; [|split; [constructor; [assumption|constructor]|split; [constructor; [assumption|constructor]|constructor; constructor]]].
      all: cbn [map concat]; unfold rem; rewrite K1; cbn [there flat_map]; rewrite <- PERM, (here_nil _ _ _ FS), !app_nil_r; reflexivity.
    - (* the next place *)
      pose proof (first_segment_spec set (r_end l) (g_src st) (g_ch st) LP OK) as FS. rewrite N in FS.
      assert (REM : Permutation (group_segs g ++ rem st' 0) (rem st T)).
      { unfold rem. rewrite K1. cbn [there flat_map fst snd]. rewrite <- PERM, (here_nil _ _ _ FS), app_nil_r, here_zero. reflexivity. }
      destruct (IH st' 0 K4 ltac:(lia) K2) as (gs & st'' & E & R1 & R2 & P & M & PL & O).
      { intros s [S _] _. apply (set_ok_in _ _ OK) in S. unfold seg_ok in S. lia. }
      { exact K3. }
      { apply Permutation_length in REM. rewrite app_length in REM. lia. }
      exists (g :: gs), st''. rewrite E. cbn [rbind]. split; [reflexivity|]. split; [congruence|]. split; [exact R2|].
      split; [|split; [|split]].
      + cbn [map concat]. rewrite P. exact REM.
      + constructor; assumption.
      + constructor; [exact GP|]. eapply Forall_impl; [|exact PL]. intros h [(H1 & H2 & H3)|H]; right.
        * rewrite K1, H1, H2. left. reflexivity.
        * rewrite K1. right. exact H.
      + constructor; [|exact O]. eapply Forall_impl; [|exact PL]. intros h H Q1 Q2. exfalso. cbn [g gp_src gp_ch] in Q1, Q2.
        apply ND1. rewrite Q1, Q2, K1. destruct H as [(H1 & H2 & _)|H]; [left|right; exact H]. congruence.
  Qed.

  Lemma flat_places : forall (ps : list (str * str)) (l : list rseg), NoDup ps ->
    (forall s, In s l -> In (r_src s, r_ch s) ps) ->
    Permutation (flat_map (fun p => filter (at_place (fst p) (snd p)) l) ps) l.
  Proof.
    induction ps as [|p ps IH]; intros l ND C; cbn [flat_map].
    - destruct l as [|s l]; [constructor|]. destruct (C s (or_introl eq_refl)).
    - inversion ND as [|? ? N1 N2]; subst.
      assert (E : forall q, In q ps -> filter (at_place (fst q) (snd q)) l = filter (at_place (fst q) (snd q)) (filter (fun s => negb (at_place (fst p) (snd p) s)) l)).
      { intros q Hq. clear - N1 Hq. induction l as [|s l IH]; [reflexivity|]. cbn [filter].
        destruct (at_place (fst q) (snd q) s) eqn:Q; destruct (at_place (fst p) (snd p) s) eqn:P; cbn [negb filter]; rewrite ?Q, ?IH; try reflexivity.
        exfalso. apply N1. apply at_place_spec in Q as [Q1 Q2]. apply at_place_spec in P as [P1 P2].
        replace p with q; [exact Hq|]. destruct p, q; cbn [fst snd] in *; congruence. }
      assert (E' : flat_map (fun p => filter (at_place (fst p) (snd p)) l) ps = flat_map (fun q => filter (at_place (fst q) (snd q)) (filter (fun s => negb (at_place (fst p) (snd p) s)) l)) ps).
      { clear - E. induction ps as [|q ps IH]; [reflexivity|]. cbn [flat_map]. rewrite (E q (or_introl eq_refl)). f_equal. apply IH. intros; apply E; right; assumption. }
      rewrite E', (IH _ N2).
      + rewrite perm_filter_split.
        * rewrite (filter_ext _ (fun _ => true)); [|intro s; apply orb_negb_r]. clear. induction l; cbn [filter]; [constructor|]. apply perm_skip. assumption.
        * intros s _ H. rewrite H. reflexivity.
      + intros s I. apply filter_In in I as [I P]. destruct (C s I) as [Q|Q]; [|exact Q].
        exfalso. subst p. cbn [fst snd] in P. assert (X : at_place (r_src s) (r_ch s) s = true) by (apply at_place_spec; auto).
        rewrite X in P. discriminate.
  Qed.

  Lemma pend_of_in : forall m srcs x y, In (x, y) (pend_of m srcs) <-> In x srcs /\ In y (chans_of m x).
  Proof.
    intros m srcs x y. unfold pend_of. rewrite in_flat_map. split.
    - intros (z & I & H). apply in_map_iff in H as (w & E & H). injection E as -> ->. auto.
    - intros [I H]. exists x. split; [exact I|]. apply in_map_iff. exists y. auto.
  Qed.
  Lemma pend_of_nodup : forall m srcs, NoDup srcs -> (forall x, NoDup (chans_of m x)) -> NoDup (pend_of m srcs).
  Proof.
    intros m srcs N C. induction N as [|x l N1 N2 IH]; [constructor|].
    unfold pend_of. cbn [flat_map]. fold (pend_of m l).
    assert (M : NoDup (map (pair x) (chans_of m x))).
    { specialize (C x). clear - C. induction C as [|y r H1 H2 IH]; cbn [map]; constructor; [|exact IH].
      intro I. apply in_map_iff in I as (z & E & I). injection E as ->. contradiction. }
    assert (D : forall p, In p (map (pair x) (chans_of m x)) -> ~ In p (pend_of m l)).
    { intros [a b] I J. apply in_map_iff in I as (z & E & I). injection E as <- <-. apply pend_of_in in J as [J _]. contradiction. }
    clear - M IH D. induction M as [|p r H1 H2 IH2]; cbn [app]; [exact IH|].
    constructor.
    - intro I. apply in_app_iff in I as [I|I]; [contradiction|]. apply (D p); [left; reflexivity|exact I].
    - apply IH2. intros q I. apply D. right. exact I.
  Qed.

  (** Starting an iteration from freshly collected places. *)
  Lemma start_ok : forall addr, concat set <> [] ->
    exists st, start_iteration addr (fst (collect_places set)) (snd (collect_places set)) set = Ok st /\
      g_refs st = addr /\ inv set st /\ g_cur st = first_segment 0 (g_src st) (g_ch st) set /\ g_cur st <> None /\
      Permutation (rem st 0) (concat set).
  Proof.
    intros addr NE. destruct (collect_ok set) as (A & B & C & D).
    destruct (collect_places set) as [srcs chans]. cbn [fst snd] in *.
    assert (S0 : srcs <> []).
    { intros ->. destruct (concat set) as [|s L]; [contradiction|]. destruct (proj2 (B (r_src s))). exists s. split; [left|]; reflexivity. }
    destruct srcs as [|src srcs']; [contradiction|]. unfold start_iteration.
    assert (CN : forall x, In x (src :: srcs') -> chans_of chans x <> []).
    { intros x I Q. apply B in I as (s & I & E). assert (J : In (r_ch s) (chans_of chans x)) by (apply D; exists s; auto).
      rewrite Q in J. destruct J. }
    pose proof (CN src (or_introl eq_refl)) as CS.
    destruct (chans_of chans src) as [|ch chs'] eqn:CH; [contradiction|].
    set (st := {| g_refs := addr; g_srcs := srcs'; g_chans := mput chans src chs'; g_src := src; g_ch := ch;
                  g_cur := first_segment 0 src ch set |}).
    inversion A as [|? ? A1 A2]; subst.
    assert (PE : pend_of chans (src :: srcs') = (src, ch) :: pend st).
    { unfold pend_of, pend. cbn [flat_map]. rewrite CH. cbn [map app st g_src g_chans g_srcs]. rewrite chans_of_mput, str_eqb_refl.
      f_equal. f_equal. symmetry. apply pend_of_mput. exact A1. }
    assert (PR : forall p, In p (pend_of chans (src :: srcs')) -> exists s, at_pl set (fst p) (snd p) s).
    { intros [x y] I. apply pend_of_in in I as [I J]. apply D in J as (s & J & E1 & E2). exists s. split; [exact J|].
      apply at_place_spec. auto. }
    assert (FS : first_segment 0 src ch set <> None).
    { intro N. destruct (PR (src, ch)) as (s & S); [rewrite PE; left; reflexivity|].
      pose proof (first_segment_spec set 0 src ch (Z.le_refl 0) OK) as F. rewrite N in F. pose proof (F s S) as F1.
      destruct S as [S _]. apply (set_ok_in _ _ OK) in S. unfold seg_ok in S. lia. }
    exists st. split; [reflexivity|]. split; [reflexivity|]. split; [|split; [reflexivity|split; [exact FS|]]].
    - split.
      + cbn [st g_src g_ch]. fold st. rewrite <- PE. apply pend_of_nodup; assumption.
      + exact A.
      + intros p I. apply PR. rewrite PE. right. exact I.
      + intros x I. cbn [st g_chans g_srcs] in *. rewrite chans_of_mput, str_eqb_neq by (intros ->; contradiction). apply CN. right. exact I.
    - unfold rem. cbn [st g_src g_ch]. fold st. rewrite here_zero.
      change (filter (at_place src ch) (concat set) ++ there (pend st)) with (there ((src, ch) :: pend st)). rewrite <- PE.
      unfold there. apply flat_places; [apply pend_of_nodup; assumption|].
      intros s I. apply pend_of_in. split; [apply B; exists s; auto|apply D; exists s; auto].
  Qed.

  Lemma iterate_ok : forall st, inv set st -> g_cur st = first_segment 0 (g_src st) (g_ch st) set -> g_cur st <> None ->
    Permutation (rem st 0) (concat set) ->
    exists gs st', all_groups (S (count_segs set)) st set hyps = Ok (gs, st') /\ g_refs st' = g_refs st /\ g_srcs st' = [] /\
      Permutation (concat (map group_segs gs)) (concat set) /\ Forall made gs /\ ForallOrdPairs in_order gs.
  Proof.
    intros st V E N P.
    destruct (run_groups (S (count_segs set)) st 0 V ltac:(lia) E) as (gs & st' & A & B & C & D & M & _ & O).
    - intros s [S _] _. apply (set_ok_in _ _ OK) in S. unfold seg_ok in S. lia.
    - exact N.
    - unfold count_segs. rewrite (Permutation_length P). lia.
    - exists gs, st'. split; [exact A|]. split; [exact B|]. split; [exact C|]. split; [rewrite D; exact P|]. auto.
  Qed.

  Lemma segment_all_ok : forall st addr, concat set <> [] -> g_refs st <> Some addr ->
    exists gs st', segment_all st addr set hyps = Ok (gs, st') /\ g_refs st' = Some addr /\ g_srcs st' = [] /\
      Permutation (concat (map group_segs gs)) (concat set) /\ Forall made gs /\ ForallOrdPairs in_order gs.
  Proof.
    intros st addr NE NR. unfold segment_all, reset.
    replace (match g_refs st with Some a => Nat.eqb a addr | None => false end) with false
      by (destruct (g_refs st) as [a|]; [|reflexivity]; symmetry; apply Nat.eqb_neq; congruence).
    destruct (start_ok (Some addr) NE) as (st0 & E & R & V & C & N & P).
    destruct (collect_places set) as [srcs chans]. cbn [fst snd] in E. rewrite E. cbn [rbind]. rewrite <- R.
    apply iterate_ok; assumption.
  Qed.
End Run.
