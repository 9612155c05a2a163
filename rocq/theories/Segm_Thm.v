(** C15: segmentation into groups of overlapping segments. *)
From Coq Require Import List ZArith NArith Arith Bool Lia Permutation.
From Verif Require Import Base Store_Model Store_Proofs Segm_Model Segm_Spec Segm_Proofs Segm_Proofs2 Segm_Proofs3.
Import ListNotations.
Local Open Scope Z_scope.

Lemma select_chosen : forall g set, Forall (Forall (fun s => 0 <= r_start s + r_end s)) set ->
  select (gp_from g) (gp_to g) (gp_src g) (gp_ch g) set = chosen_of g set.
Proof.
  intros g set H. unfold select, chosen_of.
  assert (E : map (segments_by_time (gp_from g) (gp_to g) (gp_src g) (gp_ch g)) set = map (filter (chosen g)) set).
  { apply map_ext_in. intros sp I. rewrite Forall_forall in H. specialize (H sp I). unfold segments_by_time.
    apply filter_ext_in. intros s Is. rewrite Forall_forall in H. specialize (H s Is). unfold chosen, at_place. f_equal.
    rewrite middle_div by assumption.
    assert (D := Z.div_mod (r_end s + r_start s) 2 ltac:(lia)). assert (M := Z.mod_pos_bound (r_end s + r_start s) 2 ltac:(lia)).
    set (q := (r_end s + r_start s) / 2) in *.
    f_equal.
    - destruct (Z.leb_spec (gp_from g) q); destruct (Z.leb_spec (2 * gp_from g) (r_start s + r_end s)); try reflexivity; lia.
    - destruct (Z.ltb_spec q (gp_to g)); destruct (Z.ltb_spec (r_start s + r_end s) (2 * gp_to g)); try reflexivity; lia. }
  rewrite E. apply filter_ext. intros [|x l]; reflexivity.
Qed.

Lemma set_ok_sum : forall set, set_ok set -> Forall (Forall (fun s => 0 <= r_start s + r_end s)) set.
Proof.
  intros set H. eapply Forall_impl; [|exact H]. intros sp [A _]. eapply Forall_impl; [|exact A]. intros s K. unfold seg_ok in K. cbn beta. lia.
Qed.

(** C15: the iteration terminates; every reference segment is in exactly one group; the groups
    are connected intervals in order, and hold the segments with the middle in the interval. *)
Theorem C15_groups : forall st addr refs hyps, set_ok refs -> concat refs <> [] -> g_refs st <> Some addr ->
  exists gs st', segment_all st addr refs hyps = Ok (gs, st') /\
    Permutation (concat (map group_segs gs)) (concat refs) /\
    Forall group_ok gs /\ ForallOrdPairs in_order gs /\
    Forall (fun g => gp_refs g = chosen_of g refs) gs.
Proof.
  intros st addr refs hyps OK NE NR. destruct (segment_all_ok refs hyps OK st addr NE NR) as (gs & st' & E & _ & _ & P & M & O).
  exists gs, st'. split; [exact E|]. split; [exact P|]. split; [|split; [exact O|]].
  - eapply Forall_impl; [|exact M]. intros g [A _]. exact A.
  - eapply Forall_impl; [|exact M]. intros g (_ & _ & A). rewrite A. apply select_chosen. apply set_ok_sum. exact OK.
Qed.
Print Assumptions C15_groups.

Lemma ordpairs_in : forall A (R : A -> A -> Prop) l a b, ForallOrdPairs R l -> In a l -> In b l -> a = b \/ R a b \/ R b a.
Proof.
  induction l as [|x l IH]; intros a b H I J; [destruct I|]. inversion H as [|? ? H1 H2]; subst. rewrite Forall_forall in H1.
  destruct I as [->|I]; destruct J as [->|J]; auto. 
Qed.

(** C15: reference segments that overlap in time are in the same group. *)
Theorem C15_overlap_together : forall st addr refs hyps gs st', set_ok refs -> concat refs <> [] -> g_refs st <> Some addr ->
  segment_all st addr refs hyps = Ok (gs, st') ->
  forall a b g, In a (concat refs) -> In b (concat refs) -> overlap a b -> In g gs -> In a (group_segs g) -> In b (group_segs g).
Proof.
  intros st addr refs hyps gs st' OK NE NR E a b g Ia Ib [[S1 S2] [O1 O2]] Ig Ja.
  destruct (C15_groups st addr refs hyps OK NE NR) as (gs0 & st0 & E0 & P & G & O & _).
  rewrite E in E0. injection E0 as <- <-.
  apply (Permutation_in _ (Permutation_sym P)) in Ib. apply in_concat in Ib as (l & Il & Jb).
  apply in_map_iff in Il as (h & <- & Ih).
  assert (Kg : group_ok g) by (rewrite Forall_forall in G; apply G; exact Ig).
  assert (Kh : group_ok h) by (rewrite Forall_forall in G; apply G; exact Ih).
  destruct Kg as [Kg _]. destruct Kh as [Kh _]. rewrite Forall_forall in Kg, Kh.
  specialize (Kg a Ja). specialize (Kh b Jb).
  destruct (ordpairs_in _ _ _ g h O Ig Ih) as [->|[R|R]]; [exact Jb| |].
  - unfold in_order in R. assert (gp_to g <= gp_from h) by (apply R; intuition congruence). lia.
  - unfold in_order in R. assert (gp_to h <= gp_from g) by (apply R; intuition congruence). lia.
Qed.
Print Assumptions C15_overlap_together.

(** C15: a group's hypothesis segments are those at its place with the middle in its interval,
    and no segment is in two groups. *)
Theorem C15_hypotheses : forall st addr refs hyps, set_ok refs -> concat refs <> [] -> g_refs st <> Some addr ->
  Forall (Forall (fun s => 0 <= r_start s + r_end s)) hyps ->
  exists gs st', segment_all st addr refs hyps = Ok (gs, st') /\
    Forall (fun g => gp_hyps g = chosen_of g hyps) gs /\
    ForallOrdPairs (fun g h => forall s, chosen g s = true -> chosen h s = false) gs.
Proof.
  intros st addr refs hyps OK NE NR HP. destruct (segment_all_ok refs hyps OK st addr NE NR) as (gs & st' & E & _ & _ & P & M & O).
  exists gs, st'. split; [exact E|]. split.
  - eapply Forall_impl; [|exact M]. intros g (_ & A & _). rewrite A. apply select_chosen. exact HP.
  - clear - O. induction O as [|g l H1 H2 IH]; constructor; [|exact IH].
    eapply Forall_impl; [|exact H1]. intros h R s C. unfold chosen in *.
    apply andb_prop in C as [C1 C2]. apply andb_prop in C1 as [C1 C3]. apply andb_prop in C2 as [C2 C4].
    apply str_eqb_spec in C1. apply str_eqb_spec in C3. apply Z.ltb_lt in C4.
    destruct (str_eqb (r_src s) (gp_src h)) eqn:Q1; [|reflexivity]. destruct (str_eqb (r_ch s) (gp_ch h)) eqn:Q2; [|reflexivity].
    apply str_eqb_spec in Q1. apply str_eqb_spec in Q2. cbn [andb]. apply andb_false_iff. left. apply Z.leb_gt.
    assert (gp_to g <= gp_from h) by (apply R; congruence). lia.
Qed.
Print Assumptions C15_hypotheses.

Lemma generic_groups : forall f st set, all_generic f st set =
  match all_groups f st set [] with
  | Ok (gs, st') => Ok (map (fun g => {| gp_src := gp_src g; gp_ch := gp_ch g; gp_from := gp_from g; gp_to := gp_to g;
                                         gp_refs := []; gp_hyps := gp_refs g |}) gs, st')
  | Exit => Exit | Undef => Undef | NoFuel => NoFuel
  end.
Proof.
  induction f as [|f IH]; intros st set; cbn [all_generic all_groups]; destruct (g_cur st); try reflexivity.
  unfold next_generic. destruct (next_group st set []) as [[g st']| | |]; cbn [rbind]; try reflexivity.
  rewrite IH. destruct (all_groups f st' set []) as [[gs st'']| | |]; reflexivity.
Qed.

(** C15: the iteration over all systems at once visits every segment once, whatever was done
    with the segmenter before. *)
Theorem C15_all_systems : forall st set, set_ok set -> concat set <> [] ->
  exists gs st', segment_generic st set = Ok (gs, st') /\
    Permutation (concat (map (fun g => concat (gp_hyps g)) gs)) (concat set) /\
    Forall (fun g => gp_hyps g = chosen_of g set) gs /\ ForallOrdPairs in_order gs.
Proof.
  intros st set OK NE. unfold segment_generic, reset_generic.
  destruct (start_ok set OK (g_refs st) NE) as (st0 & E & R & V & C & N & P).
  destruct (collect_places set) as [srcs chans]. cbn [fst snd] in E. rewrite E. cbn [rbind]. rewrite generic_groups.
  destruct (iterate_ok set [] OK st0 V C N P) as (gs & st' & A & _ & _ & D & M & O). rewrite A.
  eexists. eexists. split; [reflexivity|]. split; [|split].
  - rewrite map_map. exact D.
  - apply Forall_map. eapply Forall_impl; [|exact M]. intros g (_ & _ & Q). cbn [gp_hyps]. rewrite Q.
    rewrite select_chosen by (apply set_ok_sum; exact OK). reflexivity.
  - clear - O. induction O as [|g l H1 H2 IH]; cbn [map]; constructor; [|exact IH].
    apply Forall_map. eapply Forall_impl; [|exact H1]. intros h H. exact H.
Qed.
Print Assumptions C15_all_systems.

(** Preparing the segmenter for a second system with the same references takes the first
    element of an empty set. *)
Theorem C15_second_system_refuted : forall st addr refs hyps hyps' gs st',
  set_ok refs -> concat refs <> [] -> g_refs st <> Some addr ->
  segment_all st addr refs hyps = Ok (gs, st') -> segment_all st' addr refs hyps' = Undef.
Proof.
  intros st addr refs hyps hyps' gs st' OK NE NR E.
  destruct (segment_all_ok refs hyps OK st addr NE NR) as (gs0 & st0 & E0 & R1 & R2 & _). rewrite E in E0. injection E0 as <- <-.
  unfold segment_all, reset. rewrite R1, R2, Nat.eqb_refl. reflexivity.
Qed.
Print Assumptions C15_second_system_refuted.

(** Instances. *)
Definition sg (i : nat) (f c : N) (a b : Z) : rseg := {| r_id := i; r_src := [f]; r_ch := [c]; r_start := a; r_end := b |}.
Definition ex_refs : list speech :=
  [[sg 1 7 1 0 10; sg 2 7 1 12 20; sg 3 8 1 5 9]; [sg 4 7 1 8 11; sg 5 7 2 3 6; sg 6 7 1 18 30]].
Definition ex_hyps : list speech := [[sg 10 7 1 0 5; sg 11 7 1 11 12; sg 12 7 1 14 17; sg 13 9 1 0 5]].

(** A hypothesis segment between two groups, or of another file, is in no group. *)
Theorem C15_hypothesis_lost_refuted : exists gs st',
  segment_all new_segmenter 1 ex_refs ex_hyps = Ok (gs, st') /\
  forall g, In g gs -> ~ In (sg 11 7 1 11 12) (concat (gp_hyps g)) /\ ~ In (sg 13 9 1 0 5) (concat (gp_hyps g)).
Proof.
  eexists. eexists. split; [vm_compute; reflexivity|]. intros g H.
  repeat (destruct H as [<-|H]; [vm_compute; intuition congruence|]). destruct H.
Qed.
Print Assumptions C15_hypothesis_lost_refuted.

(** A reference segment of length zero, or one listed before an earlier one, is lost. *)
Theorem C15_lost_refuted :
  (exists gs st', segment_all new_segmenter 1 [[sg 1 7 1 5 5; sg 2 7 1 6 8]] [] = Ok (gs, st') /\
     ~ In (sg 1 7 1 5 5) (concat (map group_segs gs))) /\
  (exists gs st', segment_all new_segmenter 1 [[sg 1 7 1 50 60; sg 2 7 1 0 10]] [] = Ok (gs, st') /\
     ~ In (sg 2 7 1 0 10) (concat (map group_segs gs))).
Proof.
  split; eexists; eexists; (split; [vm_compute; reflexivity|vm_compute; intuition congruence]).
Qed.
Print Assumptions C15_lost_refuted.

Example C15_case : set_ok ex_refs /\ concat ex_refs <> [] /\ g_refs new_segmenter <> Some 1%nat /\
  match segment_all new_segmenter 1 ex_refs ex_hyps with
  | Ok (gs, _) => map (fun g => (gp_from g, gp_to g, map r_id (group_segs g), map r_id (concat (gp_hyps g)))) gs
                  = [(0, 11, [1; 4]%nat, [10]%nat); (12, 30, [2; 6]%nat, [12]%nat); (3, 6, [5]%nat, []); (5, 9, [3]%nat, [])]
  | _ => False
  end.
Proof.
  split; [|split; [discriminate|split; [discriminate|vm_compute; reflexivity]]].
  unfold set_ok, ex_refs. repeat (apply Forall_cons || apply Forall_nil); split;
    try (repeat (apply Forall_cons || apply Forall_nil); unfold seg_ok, int_max; cbn; lia);
    unfold in_time_order; repeat constructor; unfold same_place; cbn; intuition (try lia; try congruence).
Qed.
