(** The evaluation map (C14) and the gaps between reference segments (C59). *)
From Coq Require Import List ZArith NArith Arith Bool Lia Permutation Sorted.
From Verif Require Import Base Store_Model Store_Proofs Segm_Model Segm_Spec Segm_Proofs Segm_Thm
  Uem_Model Uem_Spec Uem_Proofs Uem_Proofs2 Uem_Proofs3.
Import ListNotations.
Local Open Scope Z_scope.

(** C14: reference segments remain exactly when inside an element for their file and channel. *)
Theorem C14_references : forall m o sp, o = IsRef \/ o = IsGen -> NoDup (map r_id sp) ->
  exists e sp', process_speech m o sp = Ok (e, sp') /\ kept (covered m) sp sp'.
Proof.
  intros m o sp HO ND. destruct (process_filter m o sp) as [e E]; [destruct HO; subst; discriminate|exact ND|].
  exists e, (filter (keep m o) sp). split; [exact E|]. apply filter_kept. intro s. destruct HO; subst o; apply keep_ref_spec.
Qed.
Print Assumptions C14_references.

(** C14: hypothesis segments remain exactly when their middle is in such an element. *)
Theorem C14_hypotheses : forall m sp, NoDup (map r_id sp) ->
  exists e sp', process_speech m IsHyp sp = Ok (e, sp') /\ kept (mid_covered m) sp sp'.
Proof.
  intros m sp ND. destruct (process_filter m IsHyp sp) as [e E]; [discriminate|exact ND|].
  exists e, (filter (keep m IsHyp) sp). split; [exact E|]. apply filter_kept. intro s. apply keep_hyp_spec.
Qed.
Print Assumptions C14_hypotheses.

(** C14: filtering again changes nothing. *)
Theorem C14_twice : forall m o sp e sp', NoDup (map r_id sp) -> process_speech m o sp = Ok (e, sp') ->
  exists e', process_speech m o sp' = Ok (e', sp').
Proof.
  intros m o sp e sp' ND E.
  assert (NO : o <> IsOther) by (intros ->; discriminate).
  destruct (process_filter m o sp NO ND) as [e1 E1]. rewrite E1 in E. injection E as _ <-.
  destruct (process_filter m o (filter (keep m o) sp) NO) as [e2 E2]; [apply nodup_filter_ids; exact ND|].
  rewrite filter_filter_same in E2. exists e2. exact E2.
Qed.
Print Assumptions C14_twice.

(** C14: the filter reports a problem only for a reference segment that crosses a border of an
    element; when it reports none, every segment that crosses a border is inside another element. *)
Theorem C14_report : forall m sp e sp', Forall (fun u => u_from u < u_to u) m -> Forall (fun s => r_start s < r_end s) sp ->
  NoDup (map r_id sp) -> process_speech m IsRef sp = Ok (e, sp') ->
  ((0 < e)%nat -> exists s u, In s sp /\ In u m /\ concerns u s /\ crosses s u) /\
  (e = 0%nat -> forall s u, In s sp -> In u m -> concerns u s -> crosses s u -> covered m s).
Proof.
  intros m sp e sp' F G ND E. destruct (refs_errs m sp 0 F G) as (_ & A & B). unfold process_speech in E.
  destruct (refs_to_remove m sp 0) as [l e']. cbn [snd] in *. destruct (remove_all l sp); try discriminate. cbn [rbind] in E. injection E as -> _.
  split; [exact B|]. intros Q s u I IU C X. destruct (keep_ref m s) eqn:K; [apply keep_ref_spec; exact K|].
  exfalso. eapply A; eassumption.
Qed.
Print Assumptions C14_report.

(** C14: an element for file "a" also keeps segments of file "ab". *)
Theorem C14_exact_file_refuted : ~ (forall m sp e sp' s, process_speech m IsRef sp = Ok (e, sp') -> In s sp' ->
  exists u, In u m /\ u_file u = r_src s).
Proof.
  intro H. set (s := {| r_id := 0; r_src := [97; 98]%N; r_ch := [49]%N; r_start := 5; r_end := 6 |}).
  destruct (H [{| u_file := [97]%N; u_ch := [49]%N; u_from := 0; u_to := 10 |}] [s] 0%nat [s] s) as (u & [<-|[]] & E).
  - reflexivity.
  - left. reflexivity.
  - discriminate.
Qed.
Print Assumptions C14_exact_file_refuted.

(** C14: a reference segment that sticks out of an element by one side only, sharing the other
    border with it, is dropped without being reported. *)
Theorem C14_report_refuted : ~ (forall m sp e sp', process_speech m IsRef sp = Ok (e, sp') -> e = 0%nat ->
  forall s u, In s sp -> In u m -> u_file u = r_src s -> u_ch u = r_ch s -> r_start s < u_to u -> u_from u < r_end s -> In s sp').
Proof.
  intro H. set (s := {| r_id := 0; r_src := [97]%N; r_ch := [49]%N; r_start := 10; r_end := 30 |}).
  set (u := {| u_file := [97]%N; u_ch := [49]%N; u_from := 10; u_to := 20 |}).
  destruct (H [u] [s] 0%nat [] eq_refl eq_refl s u (or_introl eq_refl) (or_introl eq_refl) eq_refl eq_refl); cbn; lia.
Qed.
Print Assumptions C14_report_refuted.

Lemma make_groups : forall refs, set_ok refs -> concat refs <> [] -> exists gs st,
  segment_all new_segmenter 0 refs [] = Ok (gs, st) /\ Permutation (concat (map group_segs gs)) (concat refs) /\
  Forall group_ok gs /\ ForallOrdPairs in_order gs.
Proof.
  intros refs OK NE. destruct (C15_groups new_segmenter 0 refs [] OK NE) as (gs & st & E & P & G & O & _); [discriminate|].
  exists gs, st. auto.
Qed.

Lemma tidy_gaps : forall refs gs out (T B : pmap (list Z)),
  set_ok refs -> Permutation (concat (map group_segs gs)) (concat refs) -> Forall group_ok gs ->
  (forall f c l, pfind T f c = Some l -> filter (at_pl f c) gs <> []) ->
  (forall k, In k out <-> exists l, pfind T (k_src k) (k_ch k) = Some l /\ In (k_from k, k_to k) (sorted_pairs (pget [] B (k_src k) (k_ch k)) l)) ->
  tidy refs out.
Proof.
  intros refs gs out T B OK PE GO D W. split.
  - intros k I. apply W in I as (l & E & I). split; [apply sorted_pairs_lt in I; exact I|].
    eapply L_ref; [eassumption..|]. eapply D. exact E.
  - intros k l I J S C. apply W in I as (lk & E & I). apply W in J as (ll & F & J). rewrite <- S, <- C in F, J.
    assert (lk = ll) by congruence. subst ll. destruct (sorted_pairs_apart _ _ _ _ I J) as [Q|[Q|Q]]; cbn [fst snd] in Q; auto.
    left. destruct k, l. cbn in *. congruence.
Qed.

(** C59: with a map, the gaps of a place are the time of the map's elements for that file and
    channel outside the reference segments. *)
Theorem C59_map : forall m refs hyps, set_ok refs -> concat refs <> [] ->
  exists gs, make_gaps m true refs hyps = Ok gs /\ tidy refs gs /\
    forall f c, (exists s, ref_at refs f c s) -> disjoint_map (map_at m f c) ->
      (forall s, ref_at refs f c s -> exists u, In u (map_at m f c) /\ u_from u <= r_start s /\ r_end s <= u_to u) ->
      forall t, in_gap gs f c t <-> in_element m f c t /\ ~ in_ref refs f c t.
Proof.
  intros m refs hyps OK NE. destruct (make_groups refs OK NE) as (gs & st & E & PE & GO & IO).
  pose proof (maps_all gs (scans refs gs OK PE GO)) as [K T B MN MX].
  unfold make_gaps. rewrite E. cbn [rbind].
  destruct (add_uem_all m (i_times (fold_left add_group gs no_isg)) K) as [K' P].
  assert (P' : forall f c l, pfind (fold_left add_uem m (i_times (fold_left add_group gs no_isg))) f c = Some l ->
    filter (at_pl f c) gs <> [] /\ l = flat_map ends (map span (filter (at_pl f c) gs)) ++ flat_map ends (map uspan (map_at m f c))).
  { intros f c l H. rewrite P, T in H. unfold opt_times in H. destruct (filter (at_pl f c) gs) as [|x r]; [discriminate|].
    cbn [option_map] in H. injection H as <-. split; [discriminate|reflexivity]. }
  destruct (walk_files_spec (i_borders (fold_left add_group gs no_isg)) _ K') as (out & W & S).
  { intros f c l H. apply P' in H as [_ ->]. rewrite app_length, Nat.even_add, !even_ends. reflexivity. }
  exists out. split; [exact W|]. split; [eapply tidy_gaps; [eassumption..| |exact S]; intros f c l H; apply (P' f c l H)|].
  intros f c HR [D1 D2] CO t. pose proof (L_ref refs gs PE GO f c) as LR.
  assert (NL : filter (at_pl f c) gs <> []) by (apply LR; exact HR).
  assert (PF : pfind (fold_left add_uem m (i_times (fold_left add_group gs no_isg))) f c =
    Some (flat_map ends (map span (filter (at_pl f c) gs)) ++ flat_map ends (map uspan (map_at m f c)))).
  { rewrite P, T. unfold opt_times. destruct (filter (at_pl f c) gs); [contradiction|reflexivity]. }
  set (A := fun t => existsb (inb t) (map uspan (map_at m f c))).
  set (G := fun t => existsb (inb t) (map span (filter (at_pl f c) gs))).
  assert (AT : forall t, A t = true <-> in_element m f c t).
  { intro x. unfold A. rewrite existsb_exists. split.
    - intros (i & I & J). apply in_map_iff in I as (u & <- & I). apply inb_true in J. exists u. auto.
    - intros (u & I & J). exists (uspan u). split; [apply in_map; exact I|]. apply inb_true. exact J. }
  assert (GT : forall t, G t = true <-> in_ref refs f c t) by (intro x; apply (G_ref refs gs OK PE GO f c)).
  assert (GP : forall t, (exists p, In p (sorted_pairs (map gp_from (filter (at_pl f c) gs))
      (flat_map ends (map span (filter (at_pl f c) gs)) ++ flat_map ends (map uspan (map_at m f c)))) /\ within t (fst p) (snd p)) <-> A t = true /\ G t = false).
  { apply gaps_place.
    - rewrite app_length, Nat.even_add, !even_ends. reflexivity.
    - intro x. rewrite par_app. destruct (spans_ok refs gs OK PE GO IO f c) as [S1 S2]. rewrite par_intervals by assumption.
      rewrite par_intervals.
      + apply xorb_comm.
      + apply Forall_forall. intros i I. apply in_map_iff in I as (u & <- & I). rewrite Forall_forall in D1. apply D1. exact I.
      + apply ordpairs_map. exact D2.
    - intros x H. apply AT. apply GT in H as (s & I & J). destruct (CO s I) as (u & I' & C1 & C2). exists u. split; [exact I'|]. unfold within in *. lia.
    - apply (from_in_G refs gs OK PE GO f c). }
  specialize (GP t). rewrite <- AT, <- GT. rewrite Bool.not_true_iff_false, <- GP. split.
  - intros (k & I & F1 & F2 & J). apply S in I as (l & Q & I). rewrite F1, F2, PF in Q. injection Q as <-. rewrite F1, F2, B in I.
    exists (k_from k, k_to k). auto.
  - intros (p & I & J). exists (to_gap f c p). cbn [to_gap k_src k_ch k_from k_to]. split; [|auto]. apply S. cbn [to_gap k_src k_ch k_from k_to].
    eexists. split; [exact PF|]. rewrite B. destruct p. exact I.
Qed.
Print Assumptions C59_map.

Section Hyps.
  Variables (refs : list speech) (hyps : list hseg).
  Hypothesis OK : set_ok refs.
  Hypothesis NE : concat refs <> [].
  Hypothesis HP : forall h, In h hyps -> exists s, ref_at refs (r_src (fst h)) (r_ch (fst h)) s.

  Lemma hyp_mode : exists gs out, Permutation (concat (map group_segs gs)) (concat refs) /\ Forall group_ok gs /\ ForallOrdPairs in_order gs /\
    make_gaps [] false refs hyps = Ok out /\ tidy refs out /\
    forall f c, (exists s, ref_at refs f c s) -> exists lo hi l,
      first_time refs hyps f c lo /\ last_time refs hyps f c hi /\
      Permutation l (flat_map ends (map span (filter (at_pl f c) gs)) ++ flat_map (fun _ => [lo; hi]) (hyps_at hyps f c)) /\
      forall x y, In {| k_src := f; k_ch := c; k_from := x; k_to := y |} out <-> In (x, y) (sorted_pairs (map gp_from (filter (at_pl f c) gs)) l).
  Proof.
    destruct (make_groups refs OK NE) as (gs & st & E & PE & GO & IO).
    pose proof (maps_all gs (scans refs gs OK PE GO)) as [K T B MN MX].
    assert (DM : forall h, In h hyps -> filter (at_pl (r_src (fst h)) (r_ch (fst h))) gs <> []).
    { intros h I. apply (L_ref refs gs PE GO). apply HP. exact I. }
    destruct (add_hyp_times_ok hyps (i_min (fold_left add_group gs no_isg), i_max (fold_left add_group gs no_isg))) as (mm & EM & SM).
    { intros h I. specialize (DM h I). cbn [fst snd]. specialize (MN (r_src (fst h)) (r_ch (fst h))). specialize (MX (r_src (fst h)) (r_ch (fst h))).
      split.
      - intro Q. rewrite Q in MN. cbn [sm] in MN. destruct (filter (at_pl (r_src (fst h)) (r_ch (fst h))) gs); [contradiction|discriminate].
      - intro Q. rewrite Q in MX. cbn [sm] in MX. destruct (filter (at_pl (r_src (fst h)) (r_ch (fst h))) gs); [contradiction|discriminate]. }
    destruct (borders_all mm hyps (i_times (fold_left add_group gs no_isg)) K) as [K' P].
    { intros h I Q. rewrite T in Q. unfold opt_times in Q. specialize (DM h I). destruct (filter (at_pl (r_src (fst h)) (r_ch (fst h))) gs); [contradiction|discriminate]. }
    assert (P' : forall f c l, pfind (fold_left (add_hyp_borders mm) hyps (i_times (fold_left add_group gs no_isg))) f c = Some l ->
      filter (at_pl f c) gs <> [] /\
      Permutation l (flat_map ends (map span (filter (at_pl f c) gs)) ++ flat_map (fun _ => [pget 0 (fst mm) f c; pget 0 (snd mm) f c]) (hyps_at hyps f c))).
    { intros f c l H. specialize (P f c). rewrite H, T in P. unfold opt_times in P. destruct (filter (at_pl f c) gs) as [|x r]; [contradiction|].
      split; [discriminate|exact P]. }
    destruct (walk_files_spec (i_borders (fold_left add_group gs no_isg)) _ K') as (out & W & S).
    { intros f c l H. apply P' in H as [_ H]. rewrite (Permutation_length H), app_length, Nat.even_add, even_ends, even_twice. reflexivity. }
    exists gs, out. split; [exact PE|]. split; [exact GO|]. split; [exact IO|].
    split; [unfold make_gaps; rewrite E; cbn [rbind]; rewrite EM; cbn [rbind]; exact W|].
    split; [eapply tidy_gaps; [eassumption..| |exact S]; intros f c l H; apply (P' f c l H)|].
    intros f c HR. assert (NL : filter (at_pl f c) gs <> []) by (apply (L_ref refs gs PE GO); exact HR).
    specialize (MN f c). specialize (MX f c). destruct (SM f c) as [S1 S2]. cbn [fst snd] in S1, S2.
    destruct (pfind (i_min (fold_left add_group gs no_isg)) f c) as [v|]; cbn [sm] in MN; [|destruct (filter (at_pl f c) gs); [contradiction|discriminate]].
    destruct (pfind (i_max (fold_left add_group gs no_isg)) f c) as [w|]; cbn [sm] in MX; [|destruct (filter (at_pl f c) gs); [contradiction|discriminate]].
    destruct (pfind (fst mm) f c) as [lo|] eqn:EL; cbn [ext] in S1; [|contradiction].
    destruct (pfind (snd mm) f c) as [hi|] eqn:EH; cbn [ext] in S2; [|contradiction].
    destruct (min_from refs gs PE GO f c v MN) as [(sv & V1 & V2) V3]. destruct (max_to refs gs PE GO f c w MX) as [(sw & W1 & W2) W3].
    pose proof (P f c) as PP. rewrite T in PP. unfold opt_times in PP. destruct (filter (at_pl f c) gs) as [|g0 r0] eqn:EF; [contradiction|]. rewrite <- EF in *.
    cbn [option_map] in PP.
    destruct (pfind (fold_left (add_hyp_borders mm) hyps (i_times (fold_left add_group gs no_isg))) f c) as [l|] eqn:EP; [|contradiction].
    unfold pget in PP. rewrite EL, EH in PP.
    exists lo, hi, l. destruct S1 as [L1 L2]. destruct S2 as [H1 H2]. inversion L2 as [|? ? L3 L4]; subst. inversion H2 as [|? ? H3 H4]; subst.
    rewrite Forall_forall in L4, H4.
    split; [|split; [|split; [exact PP|]]].
    - split.
      + destruct L1 as [<-|L1]; [left; exists sv; auto|right]. unfold tok_starts in L1. apply in_flat_map in L1 as (h & I & J).
        apply in_map_iff in J as ([a b] & Q & J). cbn [fst] in Q. subst a. exists h, b. auto.
      + intros t [(s & I & <-)|(h & e & I & J)]; [specialize (V3 s I); lia|]. apply L4. unfold tok_starts. apply in_flat_map. exists h. split; [exact I|].
        apply in_map_iff. exists (t, e). auto.
    - split.
      + destruct H1 as [<-|H1]; [left; exists sw; auto|right]. unfold tok_ends in H1. apply in_flat_map in H1 as (h & I & J).
        apply in_map_iff in J as ([a b] & Q & J). cbn [snd] in Q. subst b. exists h, a. auto.
      + intros t [(s & I & <-)|(h & e & I & J)]; [specialize (W3 s I); lia|]. apply H4. unfold tok_ends. apply in_flat_map. exists h. split; [exact I|].
        apply in_map_iff. exists (e, t). auto.
    - intros x y. rewrite S. cbn [k_src k_ch k_from k_to]. rewrite B, EP. split.
      + intros (l' & Q & I). injection Q as <-. exact I.
      + intro I. exists l. auto.
  Qed.
End Hyps.

(** C59: without a map, and with an odd number of hypothesis segments at the place, the gaps are
    the time between the first and the last time of the place outside the reference segments. *)
Theorem C59_hypotheses : forall refs hyps, set_ok refs -> concat refs <> [] ->
  (forall h, In h hyps -> exists s, ref_at refs (r_src (fst h)) (r_ch (fst h)) s) ->
  exists gs, make_gaps [] false refs hyps = Ok gs /\ tidy refs gs /\
    forall f c, (exists s, ref_at refs f c s) -> Nat.odd (length (hyps_at hyps f c)) = true ->
      exists lo hi, first_time refs hyps f c lo /\ last_time refs hyps f c hi /\
        forall t, in_gap gs f c t <-> within t lo hi /\ ~ in_ref refs f c t.
Proof.
  intros refs hyps OK NE HP. destruct (hyp_mode refs hyps OK NE HP) as (gs & out & PE & GO & IO & M & TD & H).
  exists out. split; [exact M|]. split; [exact TD|]. intros f c HR OD. destruct (H f c HR) as (lo & hi & l & FT & LT & PL & S).
  exists lo, hi. split; [exact FT|]. split; [exact LT|]. intro t.
  set (A := fun t => (lo <=? t) && (t <? hi)). set (G := fun t => existsb (inb t) (map span (filter (at_pl f c) gs))).
  assert (AT : forall t, A t = true <-> within t lo hi) by (intro x; unfold A, within; rewrite andb_true_iff, Z.leb_le, Z.ltb_lt; reflexivity).
  assert (GT : forall t, G t = true <-> in_ref refs f c t) by (intro x; apply (G_ref refs gs OK PE GO f c)).
  assert (LH : lo <= hi).
  { destruct HR as (s & R). pose proof R as [I _]. destruct (seg_in_ok refs OK s I) as [Q _].
    destruct FT as [_ FT]. destruct LT as [_ LT]. specialize (FT (r_start s)). specialize (LT (r_end s)).
    assert (lo <= r_start s) by (apply FT; left; exists s; auto). assert (r_end s <= hi) by (apply LT; left; exists s; auto). lia. }
  assert (GP : forall t, (exists p, In p (sorted_pairs (map gp_from (filter (at_pl f c) gs)) l) /\ within t (fst p) (snd p)) <-> A t = true /\ G t = false).
  { apply gaps_place.
    - rewrite (Permutation_length PL), app_length, Nat.even_add, even_ends, even_twice. reflexivity.
    - intro x. rewrite (par_perm x _ _ PL), par_app. destruct (spans_ok refs gs OK PE GO IO f c) as [S1 S2]. rewrite par_intervals by assumption.
      rewrite par_twice. rewrite <- Nat.negb_odd, OD. cbn [negb]. fold (G x). rewrite xorb_comm. f_equal. unfold A.
      destruct (Z.leb_spec lo x), (Z.leb_spec hi x), (Z.ltb_spec x hi); try lia; reflexivity.
    - intros x Q. apply AT. apply GT in Q as (s & I & J). destruct FT as [_ FT]. destruct LT as [_ LT].
      assert (lo <= r_start s) by (apply FT; left; exists s; auto). assert (r_end s <= hi) by (apply LT; left; exists s; auto). unfold within in *. lia.
    - apply (from_in_G refs gs OK PE GO f c). }
  specialize (GP t). rewrite <- AT, <- GT, Bool.not_true_iff_false, <- GP. split.
  - intros (k & I & F1 & F2 & J). exists (k_from k, k_to k). split; [|exact J]. apply S. rewrite <- F1, <- F2. destruct k. exact I.
  - intros (p & I & J). exists (to_gap f c p). cbn [to_gap k_src k_ch k_from k_to]. split; [|auto]. destruct p. apply S. exact I.
Qed.
Print Assumptions C59_hypotheses.

(** C59: with an even number of hypothesis segments at the place there are no gaps at all. *)
Theorem C59_even : forall refs hyps, set_ok refs -> concat refs <> [] ->
  (forall h, In h hyps -> exists s, ref_at refs (r_src (fst h)) (r_ch (fst h)) s) ->
  exists gs, make_gaps [] false refs hyps = Ok gs /\
    forall f c, (exists s, ref_at refs f c s) -> Nat.even (length (hyps_at hyps f c)) = true ->
      forall k, In k gs -> ~ (k_src k = f /\ k_ch k = c).
Proof.
  intros refs hyps OK NE HP. destruct (hyp_mode refs hyps OK NE HP) as (gs & out & PE & GO & IO & M & TD & H).
  exists out. split; [exact M|]. intros f c HR EV k I [F1 F2]. destruct (H f c HR) as (lo & hi & l & FT & LT & PL & S).
  set (G := fun t => existsb (inb t) (map span (filter (at_pl f c) gs))).
  assert (GT : forall t, G t = true <-> in_ref refs f c t) by (intro x; apply (G_ref refs gs OK PE GO f c)).
  assert (N : sorted_pairs (map gp_from (filter (at_pl f c) gs)) l = []).
  { destruct (spans_ok refs gs OK PE GO IO f c) as [S1 S2]. apply (gaps_none _ _ G).
    - rewrite (Permutation_length PL), app_length, Nat.even_add, even_ends, even_twice. reflexivity.
    - intro x. rewrite (par_perm x _ _ PL), par_app, par_twice, EV. rewrite par_intervals by assumption. apply xorb_false_r.
    - intros x J Q. apply (Permutation_in _ PL) in J. pose proof Q as QG. unfold G in Q. apply existsb_exists in Q as (i & I' & Q).
      apply inb_true in Q. apply in_map_iff in I' as (g & <- & I'). cbn [span fst snd] in Q. unfold within in Q.
      pose proof I' as IG. apply filter_In in IG as [IG AP].
      apply in_map_iff. exists g. split; [|exact I'].
      assert (X : x <= gp_from g); [|lia].
      pose proof GO as GO'. rewrite Forall_forall in GO'. destruct (GO' g IG) as (FF & (s & J1 & E1) & (s2 & J2 & E2) & _). rewrite Forall_forall in FF.
      apply at_pl_spec in AP as [AP1 AP2].
      assert (RS : forall q, In q (group_segs g) -> ref_at refs f c q).
      { intros q Jq. destruct (FF q Jq) as (P1 & P2 & _). split; [eapply group_seg_in; eassumption|]. split; congruence. }
      apply in_app_iff in J as [J|J].
      + apply in_flat_map in J as (i & I2 & J). pose proof I2 as I3. apply in_map_iff in I2 as (h & <- & I2).
        destruct (ForallOrdPairs_In S2 (span g) (span h)) as [D|[D|D]]; [apply in_map; exact I'|exact I3| | |];
          cbn [ends span fst snd In] in *.
        * injection D as D1 D2. destruct J as [J|[J|[]]]; lia.
        * rewrite Forall_forall in S1. specialize (S1 _ I3). cbn [span fst snd] in S1. destruct D as [D|D]; cbn [span fst snd] in D; destruct J as [J|[J|[]]]; lia.
        * rewrite Forall_forall in S1. specialize (S1 _ I3). cbn [span fst snd] in S1. destruct D as [D|D]; cbn [span fst snd] in D; destruct J as [J|[J|[]]]; lia.
      + apply in_flat_map in J as (h & _ & J). destruct J as [J|[J|[]]]; subst x.
        * destruct FT as [_ FT]. rewrite <- E1. apply FT. left. exists s. auto.
        * destruct LT as [_ LT]. assert (r_end s2 <= hi) by (apply LT; left; exists s2; auto). lia. }
  assert (Q : In (k_from k, k_to k) (sorted_pairs (map gp_from (filter (at_pl f c) gs)) l)).
  { apply S. rewrite <- F1, <- F2. destruct k. exact I. }
  rewrite N in Q. destruct Q.
Qed.
Print Assumptions C59_even.

(** C59: so the time outside the references is not always returned. *)
Theorem C59_parity_refuted : ~ (forall refs hyps gs f c lo hi, set_ok refs -> (exists s, ref_at refs f c s) ->
  make_gaps [] false refs hyps = Ok gs -> first_time refs hyps f c lo -> last_time refs hyps f c hi ->
  forall t, within t lo hi -> ~ in_ref refs f c t -> in_gap gs f c t).
Proof.
  intro H. set (P := fun i a b => {| r_id := i; r_src := [97]%N; r_ch := [49]%N; r_start := a; r_end := b |}).
  destruct (H [[P 0%nat 10 20; P 1%nat 30 40]] [(P 2%nat 5 12, [(5, 12)]); (P 3%nat 35 50, [(35, 50)])] [] [97]%N [49]%N 5 50) with (t := 25) as (k & [] & _).
  - constructor; [|constructor]. split; [repeat constructor; cbn; lia|]. repeat constructor; cbn; intros; lia.
  - exists (P 0%nat 10 20). split; [left; reflexivity|]. split; reflexivity.
  - vm_compute. reflexivity.
  - split.
    + right. exists (P 2%nat 5 12, [(5, 12)]), 12. split; [left; reflexivity|left; reflexivity].
    + intros t [(s & ([<-|[<-|[]]] & _) & <-)|(h & e & [<-|[<-|[]]] & [Q|[]])]; try injection Q as <- <-; cbn; lia.
  - split.
    + right. exists (P 3%nat 35 50, [(35, 50)]), 35. split; [right; left; reflexivity|left; reflexivity].
    + intros t [(s & ([<-|[<-|[]]] & _) & <-)|(h & e & [<-|[<-|[]]] & [Q|[]])]; try injection Q as <- <-; cbn; lia.
  - unfold within. lia.
  - intros (s & ([<-|[<-|[]]] & _) & W); unfold within in W; cbn in W; lia.
Qed.
Print Assumptions C59_parity_refuted.

(** C59: a hypothesis segment at a place without references ends the program. *)
Theorem C59_no_reference : forall refs hyps h, set_ok refs -> concat refs <> [] -> In h hyps ->
  ~ (exists s, ref_at refs (r_src (fst h)) (r_ch (fst h)) s) -> make_gaps [] false refs hyps = Exit.
Proof.
  intros refs hyps h OK NE I N. destruct (make_groups refs OK NE) as (gs & st & E & PE & GO & IO).
  pose proof (maps_all gs (scans refs gs OK PE GO)) as [K T B MN MX].
  unfold make_gaps. rewrite E. cbn [rbind]. rewrite (add_hyp_exit hyps _ h I); [reflexivity|]. cbn [fst].
  specialize (MN (r_src (fst h)) (r_ch (fst h))). destruct (pfind _ _ _) as [v|]; [|reflexivity]. exfalso. apply N.
  apply (L_ref refs gs PE GO). intro Q. cbn [sm] in MN. rewrite Q in MN. destruct MN as [[] _].
Qed.
Print Assumptions C59_no_reference.

(** Concrete cases. *)
Definition ex_seg (i : nat) (a b : Z) : rseg := {| r_id := i; r_src := [97]%N; r_ch := [49]%N; r_start := a; r_end := b |}.
Definition ex_map : list uem :=
  [ {| u_file := [97]%N; u_ch := [49]%N; u_from := 0; u_to := 50 |}; {| u_file := [97]%N; u_ch := [49]%N; u_from := 60; u_to := 90 |} ].

Example C14_case : NoDup (map r_id [ex_seg 0 10 20; ex_seg 1 40 55; ex_seg 2 60 90]) /\
  process_speech ex_map IsRef [ex_seg 0 10 20; ex_seg 1 40 55; ex_seg 2 60 90] = Ok (1%nat, [ex_seg 0 10 20; ex_seg 2 60 90]) /\
  process_speech ex_map IsHyp [ex_seg 0 10 20; ex_seg 1 40 55; ex_seg 2 60 90] = Ok (0%nat, [ex_seg 0 10 20; ex_seg 1 40 55; ex_seg 2 60 90]).
Proof. split; [|split; vm_compute; reflexivity]. repeat constructor; cbn; intuition discriminate. Qed.

Definition ex_refs : list speech := [[ex_seg 0 10 20; ex_seg 1 30 40]; [ex_seg 2 15 25; ex_seg 3 70 80]].
Example C59_case_hyp : set_ok ex_refs /\ concat ex_refs <> [] /\ (exists s, ref_at ex_refs [97]%N [49]%N s) /\
  disjoint_map (map_at ex_map [97]%N [49]%N) /\
  (forall s, ref_at ex_refs [97]%N [49]%N s -> exists u, In u (map_at ex_map [97]%N [49]%N) /\ u_from u <= r_start s /\ r_end s <= u_to u).
Proof.
  split; [|split; [discriminate|split; [|split]]].
  - repeat (apply Forall_cons; [split; [repeat constructor; cbn; lia|repeat constructor; cbn; intros; lia]|]). apply Forall_nil.
  - exists (ex_seg 0 10 20). split; [left; reflexivity|]. split; reflexivity.
  - split; repeat constructor; cbn; lia.
  - intros s (I & _ & _). cbn in I. destruct I as [<-|[<-|[<-|[<-|[]]]]]; cbn.
    1-3: eexists; split; [left; reflexivity|]; cbn; lia.
    eexists; split; [right; left; reflexivity|]; cbn; lia.
Qed.
Example C59_case : exists gs, make_gaps ex_map true ex_refs [] = Ok gs /\
  map (fun k => (k_from k, k_to k)) gs = [(0, 10); (25, 30); (40, 50); (60, 70); (80, 90)].
Proof. vm_compute. eexists. split; reflexivity. Qed.
Example C59_case_hyps : exists gs, make_gaps [] false ex_refs [(ex_seg 4 5 85, [(5, 9); (60, 85)])] = Ok gs /\
  Nat.odd (length (hyps_at [(ex_seg 4 5 85, [(5, 9); (60, 85)])] [97]%N [49]%N)) = true /\
  map (fun k => (k_from k, k_to k)) gs = [(5, 10); (25, 30); (40, 70); (80, 85)].
Proof. vm_compute. eexists. split; [reflexivity|]. split; reflexivity. Qed.
