From Coq Require Import List ZArith NArith Arith Bool Lia Permutation.
From Verif Require Import Base Store_Model Store_Proofs Segm_Model Segm_Spec.
Import ListNotations.
Local Open Scope Z_scope.

Lemma at_place_spec : forall src ch s, at_place src ch s = true <-> r_src s = src /\ r_ch s = ch.
Proof.
  intros. unfold at_place. rewrite andb_true_iff. rewrite !str_eqb_spec. reflexivity.
Qed.

(** * NextSegment *)
Lemma next_from_find : forall sp le t src ch, le <= t ->
  next_from le t src ch sp = find (fun s => at_place src ch s && (t <? r_end s)) sp.
Proof.
  induction sp as [|s sp IH]; intros le t src ch H; cbn [next_from find]; [reflexivity|].
  destruct (at_place src ch s); cbn [andb]; [|apply IH; exact H].
  destruct (t <? r_end s) eqn:E; cbn [andb].
  - apply Z.leb_le in H. rewrite H. reflexivity.
  - apply IH. apply Z.ltb_ge in E. exact E.
Qed.

Lemma ordpairs_cons : forall A (R : A -> A -> Prop) x l, ForallOrdPairs R (x :: l) -> Forall (R x) l /\ ForallOrdPairs R l.
Proof. intros A R x l H. inversion H; subst. auto. Qed.

Lemma next_segment_some : forall sp t src ch s, 0 <= t -> in_time_order sp -> next_segment t src ch sp = Some s ->
  In s sp /\ at_place src ch s = true /\ t < r_end s /\
  forall s', In s' sp -> at_place src ch s' = true -> t < r_end s' -> r_start s <= r_start s'.
Proof.
  intros sp t src ch s T O. unfold next_segment. rewrite next_from_find by assumption.
  induction sp as [|x sp IH]; cbn [find]; [discriminate|]. apply ordpairs_cons in O as [Ox O].
  destruct (at_place src ch x && (t <? r_end x)) eqn:E.
  - intro H. injection H as ->. apply andb_prop in E as [E1 E2]. apply Z.ltb_lt in E2.
    split; [left; reflexivity|]. split; [exact E1|]. split; [exact E2|].
    intros s' [<-|H] P _; [lia|]. rewrite Forall_forall in Ox. apply Ox; [exact H|].
    apply at_place_spec in E1 as [? ?]. apply at_place_spec in P as [? ?]. split; congruence.
  - intro H. destruct (IH O H) as (A & B & C & D). split; [right; exact A|]. split; [exact B|]. split; [exact C|].
    intros s' [<-|I] P L; [|apply D; assumption]. rewrite P in E. apply Z.ltb_lt in L. rewrite L in E. discriminate.
Qed.
Lemma next_segment_none : forall sp t src ch, 0 <= t -> next_segment t src ch sp = None ->
  forall s', In s' sp -> at_place src ch s' = true -> r_end s' <= t.
Proof.
  intros sp t src ch T. unfold next_segment. rewrite next_from_find by assumption. intros H s' I P.
  apply find_none with (x := s') in H; [|exact I]. rewrite P in H. apply Z.ltb_ge in H. exact H.
Qed.

(** All segments of a set at a place. *)
Definition at_pl (set : list speech) (src ch : str) (s : rseg) : Prop := In s (concat set) /\ at_place src ch s = true.

Lemma first_from_spec : forall set best mt t src ch, 0 <= t ->
  Forall in_time_order set -> Forall (fun sp => Forall seg_ok sp) set ->
  mt <= int_max -> (best = None -> mt = int_max) -> (forall b, best = Some b -> r_start b = mt) ->
  match first_from best mt t src ch set with
  | Some c => (best = Some c \/ (at_pl set src ch c /\ t < r_end c)) /\ r_start c <= mt /\
              forall s, at_pl set src ch s -> t < r_end s -> r_start c <= r_start s
  | None => best = None /\ forall s, at_pl set src ch s -> r_end s <= t
  end.
Proof.
  induction set as [|sp set IH]; intros best mt t src ch T O K M B1 B2; cbn [first_from].
  - destruct best as [b|].
    + split; [left; reflexivity|]. split; [rewrite (B2 b eq_refl); lia|]. intros s [[] _].
    + split; [reflexivity|]. intros s [[] _].
  - inversion O as [|? ? O1 O2]; subst. inversion K as [|? ? K1 K2]; subst.
    assert (SPLIT : forall s, at_pl (sp :: set) src ch s <-> (In s sp /\ at_place src ch s = true) \/ at_pl set src ch s).
    { intro s. unfold at_pl. cbn [concat]. rewrite in_app_iff. tauto. }
    destruct (next_segment t src ch sp) as [x|] eqn:E.
    + destruct (next_segment_some _ _ _ _ _ T O1 E) as (X1 & X2 & X3 & X4).
      destruct (r_start x <? mt) eqn:L.
      * apply Z.ltb_lt in L.
        assert (P1 : r_start x <= int_max) by lia.
        specialize (IH (Some x) (r_start x) t src ch T O2 K2 P1 ltac:(discriminate) ltac:(intros b Hb; congruence)).
        destruct (first_from (Some x) (r_start x) t src ch set) as [c|].
        -- destruct IH as (A & C & D). split; [|split].
           ++ right. destruct A as [A|A]; [injection A as <-; split; [apply SPLIT; left; auto|exact X3]|].
              split; [apply SPLIT; right; apply A|apply A].
           ++ lia.
           ++ intros s Hs Ls. apply SPLIT in Hs as [[I P]|Hs]; [|apply D; assumption].
              specialize (X4 s I P Ls). lia.
        -- destruct IH as [A _]. discriminate.
      * apply Z.ltb_ge in L.
        assert (NB : best <> None).
        { intro N. apply B1 in N. rewrite Forall_forall in K1. apply K1 in X1. unfold seg_ok in X1. lia. }
        specialize (IH best mt t src ch T O2 K2 M B1 B2).
        destruct (first_from best mt t src ch set) as [c|].
        -- destruct IH as (A & C & D). split; [|split].
           ++ destruct A as [A|A]; [left; exact A|right; split; [apply SPLIT; right; apply A|apply A]].
           ++ exact C.
           ++ intros s Hs Ls. apply SPLIT in Hs as [[I P]|Hs]; [|apply D; assumption].
              specialize (X4 s I P Ls). lia.
        -- destruct IH as [A _]. contradiction.
    + pose proof (next_segment_none _ _ _ _ T E) as N.
      specialize (IH best mt t src ch T O2 K2 M B1 B2).
      destruct (first_from best mt t src ch set) as [c|].
      * destruct IH as (A & C & D). split; [|split].
        -- destruct A as [A|A]; [left; exact A|right; split; [apply SPLIT; right; apply A|apply A]].
        -- exact C.
        -- intros s Hs Ls. apply SPLIT in Hs as [[I P]|Hs]; [|apply D; assumption].
           specialize (N s I P). lia.
      * destruct IH as (A & C). split; [exact A|]. intros s Hs. apply SPLIT in Hs as [[I P]|Hs]; [apply N; assumption|apply C; exact Hs].
Qed.

Lemma set_ok_split : forall set, set_ok set -> Forall in_time_order set /\ Forall (fun sp => Forall seg_ok sp) set.
Proof.
  intros set H. split; eapply Forall_impl; try exact H; cbn beta; tauto.
Qed.

Lemma set_ok_in : forall set s, set_ok set -> In s (concat set) -> seg_ok s.
Proof.
  intros set s H I. apply in_concat in I as (sp & Hsp & I). unfold set_ok in H. rewrite Forall_forall in H.
  apply H in Hsp as [A _]. rewrite Forall_forall in A. apply A. exact I.
Qed.

Lemma first_segment_spec : forall set t src ch, 0 <= t -> set_ok set ->
  match first_segment t src ch set with
  | Some c => at_pl set src ch c /\ t < r_end c /\ forall s, at_pl set src ch s -> t < r_end s -> r_start c <= r_start s
  | None => forall s, at_pl set src ch s -> r_end s <= t
  end.
Proof.
  intros set t src ch T H. apply set_ok_split in H as [O K].
  pose proof (first_from_spec set None int_max t src ch T O K (Z.le_refl _) (fun _ => eq_refl) ltac:(intros b Hb; discriminate)) as F.
  unfold first_segment. destruct (first_from None int_max t src ch set) as [c|].
  - destruct F as (A & B & C). destruct A as [A|A]; [discriminate|]. split; [apply A|]. split; [apply A|exact C].
  - apply F.
Qed.

(** * GetLastOverlapingSegment *)
Section Overlap.
  Variables (set : list speech) (src ch : str) (c : rseg) (T0 : Z).
  Hypothesis (OK : set_ok set) (HT : 0 <= T0).
  Hypothesis (C1 : at_pl set src ch c) (C2 : T0 < r_end c)
             (C3 : forall s, at_pl set src ch s -> T0 < r_end s -> r_start c <= r_start s).

  (** The segments found so far reach from the start of [c] to the end of [l] without a gap. *)
  Definition reach (l : rseg) : Prop :=
    at_pl set src ch l /\ r_end c <= r_end l /\
    forall t, r_start c < t < r_end l -> exists s, at_pl set src ch s /\ r_start c <= r_start s /\ r_start s < t < r_end s /\ r_end s <= r_end l.

  Lemma reach_c : reach c.
  Proof. split; [exact C1|]. split; [lia|]. intros t H. exists c. repeat split; try (apply C1); try lia. Qed.

  Lemma reach_step : forall l x, reach l -> at_pl set src ch x -> r_end l < r_end x -> r_start x < r_end l -> reach x.
  Proof.
    intros l x (A & B & C) X1 X2 X3. split; [exact X1|]. split; [lia|]. intros t H.
    destruct (Z.lt_ge_cases t (r_end l)) as [L|G].
    - destruct (C t ltac:(lia)) as (s & S1 & S2 & S3 & S4). exists s. repeat split; try (apply S1); lia.
    - exists x. split; [exact X1|]. split; [apply C3; [exact X1|lia]|]. lia.
  Qed.

  Definition later (l : rseg) : nat := length (filter (fun s => at_place src ch s && (r_end l <? r_end s)) (concat set)).

  Lemma later_decr : forall l x, at_pl set src ch x -> r_end l < r_end x -> (later x < later l)%nat.
  Proof.
    intros l x [X1 X2] X3. unfold later. induction (concat set) as [|y L IH]; [destruct X1|].
    cbn [filter].
    assert (W : (length (filter (fun s => at_place src ch s && (r_end x <? r_end s)%Z) L) <= length (filter (fun s => at_place src ch s && (r_end l <? r_end s)%Z) L))%nat).
    { clear - X3. induction L as [|z L IH]; cbn [filter]; [lia|].
      destruct (at_place src ch z); cbn [andb]; [|exact IH].
      destruct (r_end x <? r_end z) eqn:E1; destruct (r_end l <? r_end z) eqn:E2; cbn [length]; try lia; apply Z.ltb_lt in E1; apply Z.ltb_ge in E2; lia. }
    destruct X1 as [->|X1].
    - rewrite X2. cbn [andb]. rewrite Z.ltb_irrefl. apply Z.ltb_lt in X3. rewrite X3. cbn [length]. lia.
    - specialize (IH X1). destruct (at_place src ch y); cbn [andb]; [|exact IH].
      destruct (r_end x <? r_end y) eqn:E1; destruct (r_end l <? r_end y) eqn:E2; cbn [length]; try lia; apply Z.ltb_lt in E1; apply Z.ltb_ge in E2; lia.
  Qed.

  Lemma pass_spec : forall part last again l a, (forall sp, In sp part -> In sp set) -> reach last ->
    overlap_pass src ch part last again = (l, a) ->
    reach l /\ (later l <= later last)%nat /\
    ((a = again /\ l = last /\ forall sp s, In sp part -> In s sp -> at_place src ch s = true -> r_end l < r_end s -> r_end l <= r_start s)
     \/ (a = true /\ (later l < later last)%nat)).
  Proof.
    induction part as [|sp part IH]; intros last again l a SUB R E; cbn [overlap_pass] in E.
    - injection E as <- <-. split; [exact R|]. split; [lia|]. left. split; [reflexivity|]. split; [reflexivity|]. intros sp s [].
    - assert (SUB' : forall sp, In sp part -> In sp set) by (intros; apply SUB; right; assumption).
      assert (POS : 0 <= r_end last).
      { destruct R as ([I _] & _). apply (set_ok_in _ _ OK) in I. unfold seg_ok in I. lia. }
      assert (ORD : in_time_order sp).
      { unfold set_ok in OK. rewrite Forall_forall in OK. apply OK. apply SUB. left. reflexivity. }
      destruct (next_segment (r_end last) src ch sp) as [x|] eqn:N.
      + destruct (next_segment_some _ _ _ _ _ POS ORD N) as (X1 & X2 & X3 & X4).
        assert (XP : at_pl set src ch x).
        { split; [|exact X2]. apply in_concat. exists sp. split; [apply SUB; left; reflexivity|exact X1]. }
        destruct (r_start x <? r_end last) eqn:L.
        * apply Z.ltb_lt in L. pose proof (reach_step _ _ R XP X3 L) as R'.
          destruct (IH x true l a SUB' R' E) as (P & Q & D). split; [exact P|].
          pose proof (later_decr last x XP X3) as LD. split; [lia|]. right.
          destruct D as [(-> & -> & _)|[-> D]]; split; try reflexivity; lia.
        * apply Z.ltb_ge in L. destruct (IH last again l a SUB' R E) as (P & Q & D). split; [exact P|]. split; [exact Q|].
          destruct D as [(-> & -> & D)|D]; [left|right; exact D]. split; [reflexivity|]. split; [reflexivity|].
          intros sp' s [<-|I] S1 S2 S3; [|eapply D; eassumption]. specialize (X4 s S1 S2 S3). lia.
      + pose proof (next_segment_none _ _ _ _ POS N) as N'.
        destruct (IH last again l a SUB' R E) as (P & Q & D). split; [exact P|]. split; [exact Q|].
        destruct D as [(-> & -> & D)|D]; [left|right; exact D]. split; [reflexivity|]. split; [reflexivity|].
        intros sp' s [<-|I] S1 S2 S3; [|eapply D; eassumption]. specialize (N' s S1 S2). lia.
  Qed.

  Lemma last_spec : forall fuel last, reach last -> (later last < fuel)%nat ->
    exists l, last_overlapping fuel src ch set last = Ok l /\ reach l /\
      forall s, at_pl set src ch s -> r_end l < r_end s -> r_end l <= r_start s.
  Proof.
    induction fuel as [|f IH]; intros last R F; [lia|]. cbn [last_overlapping].
    destruct (overlap_pass src ch set last false) as [l a] eqn:E.
    destruct (pass_spec set last false l a (fun _ H => H) R E) as (P & Q & D).
    destruct a.
    - destruct D as [(D & _)|[_ D]]; [discriminate|]. apply IH; [exact P|lia].
    - destruct D as [(_ & _ & D)|[D _]]; [|discriminate]. exists l. split; [reflexivity|]. split; [exact P|].
      intros s [S1 S2] S3. apply in_concat in S1 as (sp & S0 & S1). eapply D; eassumption.
  Qed.
End Overlap.

Lemma later_bound : forall set src ch l, (later set src ch l <= count_segs set)%nat.
Proof.
  intros. unfold later, count_segs. induction (concat set) as [|x L IH]; cbn [filter length]; [lia|].
  destruct (_ && _); cbn [length]; lia.
Qed.

(** * Selection by the middle *)
Lemma middle_div : forall s, 0 <= r_start s + r_end s -> middle s = (r_end s + r_start s) / 2.
Proof. intros s H. unfold middle. apply Z.quot_div_nonneg; lia. Qed.

Lemma concat_filter_nonempty : forall l, concat (filter non_empty l) = concat l.
Proof.
  induction l as [|x l IH]; cbn [filter concat]; [reflexivity|]. destruct x; cbn [non_empty concat]; rewrite IH; reflexivity.
Qed.
Lemma concat_map_filter : forall A (p : A -> bool) l, concat (map (filter p) l) = filter p (concat l).
Proof.
  induction l as [|x l IH]; cbn [map concat]; [reflexivity|]. rewrite IH. symmetry. apply filter_app.
Qed.
Lemma concat_select : forall from to src ch set, concat (select from to src ch set) =
  filter (fun s => at_place src ch s && ((from <=? middle s) && (middle s <? to))) (concat set).
Proof.
  intros. unfold select. rewrite concat_filter_nonempty. unfold segments_by_time. apply concat_map_filter.
Qed.

Section Group.
  Variables (set : list speech) (src ch : str) (c l : rseg) (T0 : Z).
  Hypothesis (OK : set_ok set).
  Hypothesis (C1 : at_pl set src ch c) (C2 : T0 < r_end c)
             (C3 : forall s, at_pl set src ch s -> T0 < r_end s -> r_start c <= r_start s)
             (C4 : forall s, at_pl set src ch s -> T0 < r_end s -> T0 <= r_start s)
             (L1 : reach set src ch c l)
             (L2 : forall s, at_pl set src ch s -> r_end l < r_end s -> r_end l <= r_start s).

  Lemma in_group : forall s, at_pl set src ch s ->
    (r_start c <=? middle s) && (middle s <? r_end l) = (T0 <? r_end s) && (r_end s <=? r_end l).
  Proof.
    intros s S. pose proof (set_ok_in _ _ OK (proj1 S)) as K. unfold seg_ok in K.
    rewrite middle_div by lia.
    assert (C0 : T0 <= r_start c) by (apply C4; assumption).
    assert (B := Z.div_lt_upper_bound (r_end s + r_start s) 2 (r_end s) ltac:(lia) ltac:(lia)).
    assert (B' := Z.div_le_lower_bound (r_end s + r_start s) 2 (r_start s) ltac:(lia) ltac:(lia)).
    destruct (T0 <? r_end s) eqn:E1; cbn [andb].
    - apply Z.ltb_lt in E1. specialize (C3 s S E1).
      replace (r_start c <=? (r_end s + r_start s) / 2) with true by (symmetry; apply Z.leb_le; lia). cbn [andb].
      destruct (r_end s <=? r_end l) eqn:E2.
      + apply Z.leb_le in E2. apply Z.ltb_lt. lia.
      + apply Z.leb_gt in E2. specialize (L2 s S E2). apply Z.ltb_ge. lia.
    - apply Z.ltb_ge in E1. apply andb_false_iff. left. apply Z.leb_gt. lia.
  Qed.

  Lemma group_filter : concat (select (r_start c) (r_end l) src ch set) =
    filter (fun s => at_place src ch s && ((T0 <? r_end s) && (r_end s <=? r_end l))) (concat set).
  Proof.
    rewrite concat_select. apply filter_ext_in. intros s I. destruct (at_place src ch s) eqn:P; [|reflexivity].
    cbn [andb]. apply in_group. split; assumption.
  Qed.

  Lemma group_is_ok : forall hyps, group_ok {| gp_src := src; gp_ch := ch; gp_from := r_start c; gp_to := r_end l;
    gp_refs := select (r_start c) (r_end l) src ch set; gp_hyps := hyps |}.
  Proof.
    intro hyps. unfold group_ok, group_segs. cbn [gp_src gp_ch gp_from gp_to gp_refs]. rewrite group_filter.
    destruct L1 as (LA & LB & LC).
    assert (MEM : forall s, at_pl set src ch s -> T0 < r_end s -> r_end s <= r_end l ->
      In s (filter (fun s => at_place src ch s && ((T0 <? r_end s) && (r_end s <=? r_end l))) (concat set))).
    { intros s [S1 S2] S3 S4. apply filter_In. split; [exact S1|]. rewrite S2. cbn [andb].
      apply andb_true_iff. split; [apply Z.ltb_lt|apply Z.leb_le]; assumption. }
    split; [|split; [|split]].
    - apply Forall_forall. intros s I. apply filter_In in I as [I P]. apply andb_prop in P as [P Q].
      apply andb_prop in Q as [Q1 Q2]. apply Z.ltb_lt in Q1. apply Z.leb_le in Q2.
      assert (S : at_pl set src ch s) by (split; assumption). specialize (C3 s S Q1).
      apply at_place_spec in P as [? ?]. auto.
    - exists c. split; [|reflexivity]. apply MEM; try assumption.
    - exists l. split; [|reflexivity]. apply MEM; try assumption; lia.
    - intros t Ht. destruct (LC t Ht) as (s & S1 & S2 & S3 & S4). exists s. split; [|exact S3]. apply MEM; try assumption.
      assert (C0 : T0 <= r_start c) by (apply C4; assumption). lia.
  Qed.
End Group.

Lemma perm_filter_split : forall A (p q : A -> bool) l, (forall x, In x l -> p x = true -> q x = false) ->
  Permutation (filter p l ++ filter q l) (filter (fun x => p x || q x) l).
Proof.
  induction l as [|x l IH]; intro H; cbn [filter app]; [constructor|].
  assert (H' : forall y, In y l -> p y = true -> q y = false) by (intros; apply H; [right|]; assumption).
  specialize (IH H'). destruct (p x) eqn:P; cbn [orb].
  - rewrite (H x (or_introl eq_refl) P). cbn [app]. apply perm_skip. exact IH.
  - destruct (q x); [|exact IH]. apply Permutation_sym. apply Permutation_cons_app. apply Permutation_sym. exact IH.
Qed.
