(** C63, C64, C66: scoring of a CTM file against an STM file. *)
From Coq Require Import List NArith ZArith Arith Bool Lia Sorted.
From Verif Require Import Base Chan_Model Chan_Spec Chan_Proofs Chan_Proofs2 Chan_Proofs3 Chan_Proofs4.
Import ListNotations.
Local Open Scope Z_scope.

Lemma pairl_of R H P : Pairing R H P <-> PairL R H P [].
Proof.
  split.
  - induction 1; constructor; auto.
  - intro X. remember [] as E. revert HeqE. induction X; intro; subst; constructor; auto.
Qed.
Lemma pairl_total : forall R H, exists P H', PairL R H P H'.
Proof.
  induction R as [|[k s] R IH]; intro H; [exists [], H; constructor|].
  destruct H as [|[k' w] H].
  - destruct (IH []) as (P & H' & X). eexists _, H'. apply l_none; [exact I|exact X].
  - assert (D : {k = k'} + {k <> k'}).
    { destruct k as [a b], k' as [c d]. destruct (list_eq_dec N.eq_dec a c), (list_eq_dec N.eq_dec b d); subst; [left; reflexivity|right|right|right]; congruence. }
    destruct D as [<-|D].
    + destruct (IH H) as (P & H' & X). eexists _, H'. apply l_same. exact X.
    + destruct (IH ((k', w) :: H)) as (P & H' & X). eexists _, H'. apply l_none; [congruence|exact X].
Qed.
Lemma done_forall o hyp stm P cs : done_all o hyp stm P cs -> Forall2 (fun p c => exists us, channel_done o hyp stm p us c) P cs.
Proof. induction 1; constructor; eauto. Qed.
Lemma runs_some {A K} (key : A -> K) l R : Runs key l R -> l <> [] -> R <> [].
Proof. destruct 1; congruence. Qed.
Lemma run_all o hyp stm R H uss : stm <> [] -> Runs seg_key stm R -> Runs word_key hyp H -> Forall2 (fun r u => Units (snd r) u) H uss ->
  forall P H', PairL R H P H' -> outcome o hyp stm P H' (align_ctm_to_stm o hyp stm).
Proof.
  intros NE RR RH HU P H' X. unfold align_ctm_to_stm.
  pose proof (runs_join _ _ _ RR) as ER. pose proof (runs_join _ _ _ RH) as EH.
  rewrite <- (mark_words false hyp) at 1.
  change 1 with (Z.of_nat (@length mword []) + 1). change 0 with (Z.of_nat (@length seg [])).
  eapply channels_spec; eauto.
  - eapply runs_some; eauto.
  - rewrite <- ER. exact RR.
  - rewrite <- EH. exact RH.
  - clear - RR. induction RR as [|k l rest rs N0 F RR IH D]; cbn [length]; [lia|]. rewrite app_length. destruct l; [contradiction|cbn [length]; lia].
  - rewrite EH. reflexivity.
Qed.

Lemma Forall2_impl {A B} (Q Q' : A -> B -> Prop) l m : (forall a b, Q a b -> Q' a b) -> Forall2 Q l m -> Forall2 Q' l m.
Proof. intros HQ F. induction F; constructor; auto. Qed.

(** The words of a channel are given to the segments of the same channel by their middles. *)
Theorem C63_assignment : forall o hyp stm R H uss P,
  stm <> [] -> Runs seg_key stm R -> Runs word_key hyp H -> Forall2 (fun r us => Units (snd r) us) H uss -> Pairing R H P ->
  exists cs, align_ctm_to_stm o hyp stm = Ok (Some cs) /\
    Forall2 (fun p c => exists us gs lf, Units (snd p) us /\ Given (used o (snd p)) (fst p) us gs lf /\
                          Forall2 (shows hyp stm) (cuts c) gs) P cs.
Proof.
  intros o hyp stm R H uss P NE RR RH HU PP. apply pairl_of in PP.
  destruct (run_all o hyp stm R H uss NE RR RH HU P [] PP) as (cs & E & D).
  exists cs. split; [exact E|]. apply done_forall in D. eapply Forall2_impl; [|exact D].
  intros p c (us & HUs & _ & gs & lf & G & S). eauto 10.
Qed.

Lemma forall2_with {A B} (N : A -> Prop) (Q Q' : A -> B -> Prop) l m :
  Forall2 Q l m -> Forall N l -> (forall a b, N a -> Q a b -> Q' a b) -> Forall2 Q' l m.
Proof. intros F. induction F; intros FN HQ; constructor; inversion FN; subst; auto. Qed.
Lemma pairing_nonempty stm R H P : Runs seg_key stm R -> Pairing R H P -> Forall (fun p => fst p <> []) P.
Proof.
  intros RR PP.
  assert (X : forall r, In r R -> snd r <> []).
  { clear PP. induction RR as [|k l rest rs N0 F RR IH D]; intros r Hr; [destruct Hr|]. destruct Hr as [<-|Hr]; [exact N0|apply IH; exact Hr]. }
  clear RR. induction PP as [|k s w R H P PP IH|k s R H P D PP IH]; constructor;
    try (apply (X (k, s)); left; reflexivity); apply IH; intros r Hr; apply X; right; exact Hr.
Qed.
Lemma shows_words hyp stm cs gs : Forall2 (shows hyp stm) cs gs ->
  map (fun x => nth_error stm (Z.to_nat (c_seg x))) cs = map Some (map fst gs) /\
  List.concat (map (fun x => words_of hyp (c_from x) (c_to x)) cs) = flat_map spell (List.concat (map snd gs)).
Proof.
  induction 1 as [|c g cs gs (A & _ & B & _) _ [IH1 IH2]]; cbn [map List.concat]; [auto|].
  rewrite A, IH1, B, IH2, flat_map_app. auto.
Qed.
Lemma used_always o ws s : reduce_ref o = false -> used o ws s.
Proof. intros E F. congruence. Qed.

(** Without "-m ref" every segment of the channel is in the result, in order, and the words of the
    channel are cut into consecutive pieces: each one is in exactly one segment. *)
Theorem C63_partition : forall o hyp stm R H uss P,
  reduce_ref o = false ->
  stm <> [] -> Runs seg_key stm R -> Runs word_key hyp H -> Forall2 (fun r us => Units (snd r) us) H uss -> Pairing R H P ->
  exists cs, align_ctm_to_stm o hyp stm = Ok (Some cs) /\
    Forall2 (fun p c => map (fun x => nth_error stm (Z.to_nat (c_seg x))) (cuts c) = map Some (fst p) /\
                        List.concat (map (fun x => words_of hyp (c_from x) (c_to x)) (cuts c)) = snd p) P cs.
Proof.
  intros o hyp stm R H uss P RF NE RR RH HU PP.
  destruct (C63_assignment o hyp stm R H uss P NE RR RH HU PP) as (cs & E & F). exists cs. split; [exact E|].
  eapply forall2_with; [exact F|eapply pairing_nonempty; eauto|].
  intros [s w] c Ns (us & gs & lf & [Ew _] & G & S). cbn [fst snd] in *.
  destruct (shows_words _ _ _ _ S) as [-> ->].
  assert (lf = []) by (eapply given_all; [exact G|exact Ns|apply used_always, RF]). subst lf.
  rewrite (given_segs _ _ _ _ _ G) by (intros; apply used_always, RF). split; [reflexivity|].
  rewrite Ew. f_equal. apply given_concat in G. rewrite app_nil_r in G. symmetry. exact G.
Qed.

(** The units in the order of their middles. *)
Definition ordered (us : list unit) : Prop := exists ms, Forall2 middle us ms /\ StronglySorted Z.le ms.

Lemma ordered_tail us us' : ordered (us ++ us') -> ordered us'.
Proof.
  induction us as [|u us IH]; intros (ms & F & S); [exists ms; auto|].
  inversion F; subst. apply IH. exists l'. split; [assumption|]. inversion S; assumption.
Qed.
Lemma ordered_after u us v t : ordered (u :: us) -> ~ before u t -> In v (u :: us) -> ~ before v t.
Proof.
  intros (ms & F & S) NB Hv (m & Hm & L). inversion F as [|? mu ? ms' Hu F']; subst. apply NB.
  destruct Hv as [<-|Hv]; [exists m; auto|]. exists mu. split; [exact Hu|].
  inversion S as [|? ? S' FA]; subst.
  assert (exists m', In m' ms' /\ middle v m') as (m' & Hm' & Mv).
  { clear - F' Hv. induction F' as [|a b l l' Hab F IH]; [destruct Hv|]. destruct Hv as [<-|Hv]; [exists b; split; [left|]; auto|].
    destruct (IH Hv) as (m' & A & B). exists m'. split; [right|]; auto. }
  rewrite (middle_unique _ _ _ Hm Mv) in L. rewrite Forall_forall in FA. specialize (FA _ Hm'). lia.
Qed.
Lemma given_first U segs us gs lf : Given U segs us gs lf -> (forall s, In s segs -> U s) -> ordered us ->
  forall k s g u, nth_error gs k = Some (s, g) -> In u g ->
    (before u (s_t2 s) \/ Datatypes.S k = length segs) /\
    forall j s', (j < k)%nat -> nth_error segs j = Some s' -> ~ before u (s_t2 s').
Proof.
  induction 1 as [us|s r us gs lf NU G IH|s us HU|s r us us' gs lf HU NR Fb Nb G IH]; intros HA HO k s0 g u Hk Hu.
  - destruct k; discriminate Hk.
  - exfalso. apply NU, HA. left; reflexivity.
  - destruct k; [|destruct k; discriminate Hk]. injection Hk as <- <-. split; [right; reflexivity|]. intros j s' Hj. lia.
  - destruct k as [|k].
    + injection Hk as <- <-. split; [left|intros j s' Hj; lia]. rewrite Forall_forall in Fb. apply Fb. exact Hu.
    + cbn [nth_error] in Hk. assert (HA' : forall x, In x r -> U x) by (intros; apply HA; right; auto).
      pose proof (ordered_tail _ _ HO) as HO'.
      destruct (IH HA' HO' k s0 g u Hk Hu) as [A B]. split.
      * destruct A as [A|A]; [left; exact A|right]. cbn [length]. lia.
      * intros j s' Hj Hs'. destruct j as [|j]; [|apply (B j s'); [lia|exact Hs']].
        cbn [nth_error] in Hs'. injection Hs' as <-.
        assert (Hin : In u us').
        { rewrite (given_concat _ _ _ _ _ G). apply in_or_app. left. apply in_concat. exists g. split; [|exact Hu].
          apply in_map_iff. exists (s0, g). split; [reflexivity|]. eapply nth_error_In; exact Hk. }
        destruct us' as [|v us']; [destruct Hin|]. eapply ordered_after; [exact HO'|exact Nb|exact Hin].
Qed.

Lemma units_unique ws us us' : Units ws us -> Units ws us' -> us = us'.
Proof.
  intros [E W] [E' W']. rewrite E in E'. clear E ws. revert us' W' E'. induction W as [|u us Wu _ IH]; intros us' W' E'.
  - symmetry in E'. apply units_nonempty in E'. auto.
  - destruct W' as [|u' us' Wu' W']; [apply units_nonempty in E'; discriminate|]. cbn [flat_map] in E'.
    assert (X : u = u' /\ flat_map spell us = flat_map spell us').
    { destruct u as [w|b body e], u' as [w'|b' body' e']; cbn [spell well_formed app] in *.
      - injection E' as -> E'. auto.
      - exfalso. injection E' as -> E'. apply Wu. apply begin_marks. apply Wu'.
      - exfalso. injection E' as -> E'. apply Wu'. apply begin_marks. apply Wu.
      - injection E' as -> E'. destruct Wu as (_ & NE & EE), Wu' as (_ & NE' & EE'). rewrite <- !app_assoc in E'. cbn [app] in E'.
        assert (Y : body = body' /\ e :: flat_map spell us = e' :: flat_map spell us').
        { clear IH W'. revert body' NE' E'. induction NE as [|x body Nx NE IH]; intros [|x' body'] NE' E'; cbn [app] in E'.
          - auto.
          - injection E' as -> E'. inversion NE'; contradiction.
          - injection E' as -> E'. contradiction.
          - injection E' as -> E'. inversion NE'; subst. destruct (IH body') as [-> Z]; auto. }
        destruct Y as [-> Y]. injection Y as -> Y. auto. }
    destruct X as [-> X]. f_equal. apply IH; assumption.
Qed.

(** If the words come in the order of their middles, a word is in the first segment that ends after
    its middle, in the last one if there is none. *)
Theorem C63_first_segment : forall o hyp stm R H uss P,
  reduce_ref o = false ->
  stm <> [] -> Runs seg_key stm R -> Runs word_key hyp H -> Forall2 (fun r us => Units (snd r) us /\ ordered us) H uss -> Pairing R H P ->
  exists cs, align_ctm_to_stm o hyp stm = Ok (Some cs) /\
    Forall2 (fun p c => exists gs, Forall2 (shows hyp stm) (cuts c) gs /\ map fst gs = fst p /\
       forall k s g u, nth_error gs k = Some (s, g) -> In u g ->
         (before u (s_t2 s) \/ Datatypes.S k = length (fst p)) /\
         forall j s', (j < k)%nat -> nth_error (fst p) j = Some s' -> ~ before u (s_t2 s')) P cs.
Proof.
  intros o hyp stm R H uss P RF NE RR RH HU PP.
  assert (HU' : Forall2 (fun r us => Units (snd r) us) H uss) by (eapply Forall2_impl; [|exact HU]; intros a b [X _]; exact X).
  destruct (C63_assignment o hyp stm R H uss P NE RR RH HU' PP) as (cs & E & F). exists cs. split; [exact E|].
  assert (HO : Forall (fun p => forall us, Units (snd p) us -> ordered us) P).
  { clear - HU PP. revert uss HU. induction PP as [|k s w R H P PP IH|k s R H P D PP IH]; intros uss HU; constructor.
    - cbn [snd]. inversion HU as [|? us ? ? [Hu Ho] HU']; subst. intros us' Hus'.
      rewrite (units_unique _ _ _ Hus' Hu). exact Ho.
    - inversion HU; subst. eapply IH; eauto.
    - cbn [snd]. intros us [Eu _]. symmetry in Eu. apply units_nonempty in Eu. subst us. exists []. split; constructor.
    - eapply IH; eauto. }
  eapply forall2_with; [exact F|exact HO|].
  intros [s w] c Hord (us & gs & lf & HUs & G & S). cbn [fst snd] in *. exists gs. split; [exact S|].
  assert (HA : forall x, In x s -> used o w x) by (intros; apply used_always, RF).
  split; [eapply given_segs; eauto|]. eapply given_first; eauto.
Qed.

(** A hypothesis that cannot be paired is refused, with "-f 0". *)
Theorem C64_refused : forall o hyp stm R H uss,
  feedback o = false ->
  stm <> [] -> Runs seg_key stm R -> Runs word_key hyp H -> Forall2 (fun r us => Units (snd r) us) H uss ->
  (~ exists P, Pairing R H P) -> align_ctm_to_stm o hyp stm = Ok None.
Proof.
  intros o hyp stm R H uss FB NE RR RH HU NP. destruct (pairl_total R H) as (P & H' & X).
  pose proof (run_all o hyp stm R H uss NE RR RH HU P H' X) as O. destruct H' as [|h H'].
  - exfalso. apply NP. exists P. apply pairl_of. exact X.
  - unfold outcome in O. rewrite FB in O. exact O.
Qed.

Lemma pairing_names R H P : Pairing R H P -> forall k w, In (k, w) H -> exists s, In (k, s) R /\ In (s, w) P.
Proof.
  induction 1 as [|k s w R H P PP IH|k s R H P D PP IH]; intros k0 w0 Hin.
  - destruct Hin.
  - destruct Hin as [E|Hin].
    + injection E as <- <-. exists s. split; left; reflexivity.
    + destruct (IH _ _ Hin) as (s0 & A & B). exists s0. split; right; assumption.
  - destruct (IH _ _ Hin) as (s0 & A & B). exists s0. split; right; assumption.
Qed.
Lemma pairing_refs R H P : Pairing R H P -> forall s w, In (s, w) P -> exists k, In (k, s) R /\ (w = [] \/ In (k, w) H).
Proof.
  induction 1 as [|k s w R H P PP IH|k s R H P D PP IH]; intros s0 w0 Hin.
  - destruct Hin.
  - destruct Hin as [E|Hin].
    + injection E as <- <-. exists k. split; [left|right; left]; reflexivity.
    + destruct (IH _ _ Hin) as (k0 & A & [B|B]); exists k0; (split; [right; exact A|]); [left|right; right]; exact B.
  - destruct Hin as [E|Hin].
    + injection E as <- <-. exists k. split; [left|left]; reflexivity.
    + destruct (IH _ _ Hin) as (k0 & A & B). exists k0. split; [right; exact A|exact B].
Qed.
Lemma pairing_order R H P : Pairing R H P -> map fst P = map snd R.
Proof. induction 1; cbn [map fst snd]; congruence. Qed.

(** When the files are scored, every channel of the reference is there, in order, with the words of
    the channel of the same name or with none, and no channel of the hypothesis is left out. *)
Theorem C64_channels : forall o hyp stm R H uss cs,
  stm <> [] -> Runs seg_key stm R -> Runs word_key hyp H -> Forall2 (fun r us => Units (snd r) us) H uss ->
  align_ctm_to_stm o hyp stm = Ok (Some cs) ->
  exists P, length P = length cs /\ map fst P = map snd R /\
    (forall s w, In (s, w) P -> exists k, In (k, s) R /\ (w = [] \/ In (k, w) H)) /\
    (forall k w, In (k, w) H -> exists s, In (k, s) R /\ In (s, w) P) /\
    Forall2 (fun p c => exists us gs lf, Units (snd p) us /\ Given (used o (snd p)) (fst p) us gs lf /\
                          Forall2 (shows hyp stm) (cuts c) gs) P cs.
Proof.
  intros o hyp stm R H uss cs NE RR RH HU E. destruct (pairl_total R H) as (P & H' & X).
  pose proof (run_all o hyp stm R H uss NE RR RH HU P H' X) as O. destruct H' as [|h H'].
  - apply pairl_of in X. exists P.
    destruct (C63_assignment o hyp stm R H uss P NE RR RH HU X) as (cs' & E' & F).
    rewrite E in E'. injection E' as <-.
    split; [|split; [|split; [|split]]].
    + clear - F. induction F; cbn [length]; congruence.
    + eapply pairing_order; eauto.
    + eapply pairing_refs; eauto.
    + eapply pairing_names; eauto.
    + exact F.
  - unfold outcome in O. rewrite O in E. destruct (feedback o); discriminate E.
Qed.

(** A channel of the hypothesis that the reference does not have. *)
Theorem C64_unknown_channel : forall o hyp stm R H uss k w,
  feedback o = false ->
  stm <> [] -> Runs seg_key stm R -> Runs word_key hyp H -> Forall2 (fun r us => Units (snd r) us) H uss ->
  In (k, w) H -> (forall s, ~ In (k, s) R) -> align_ctm_to_stm o hyp stm = Ok None.
Proof.
  intros o hyp stm R H uss k w FB NE RR RH HU Hin NR. eapply C64_refused; eauto.
  intros (P & PP). destruct (pairing_names _ _ _ PP _ _ Hin) as (s & A & _). exact (NR s A).
Qed.

(** With the default feedback the same refusal reads beyond the segments. *)
Theorem C64_refused_feedback_refuted : exists o hyp stm, feedback o = true /\ stm <> [] /\
  align_ctm_to_stm o hyp stm = Undef.
Proof.
  exists {| reduce_ref := false; reduce_hyp := false; feedback := true; ups := 100 |},
    [{| conv := [102]; turn := [66]; sp := [97]; t1 := 10; dur := 4 |}]%N,
    [{| file := [102]; chan := [65]; s_t1 := 0; s_t2 := 100; text := [97] |}]%N.
  split; [reflexivity|]. split; [discriminate|]. vm_compute. reflexivity.
Qed.
(** An empty reference. *)
Theorem C64_empty_reference_refuted : forall o hyp, align_ctm_to_stm o hyp [] = Undef.
Proof.
  intros o hyp. unfold align_ctm_to_stm. cbn [length channels_loop].
  destruct (feedback o); [reflexivity|]. cbn [rbind].
  destruct (Z.of_nat (length (mark_alternates false hyp)) <? 1) eqn:E; [reflexivity|].
  destruct hyp as [|w hyp]; [discriminate E|]. reflexivity.
Qed.
(** An alternation without its end: the words of the next channel are taken, or the memory after the last word is read. *)
Theorem C63_unterminated_refuted :
  (exists o hyp stm, align_ctm_to_stm o hyp stm = Undef /\ stm <> [] /\ feedback o = false) /\
  (exists o hyp stm cs c x w, align_ctm_to_stm o hyp stm = Ok (Some cs) /\ In c cs /\ In x (cuts c) /\
     In w (words_of hyp (c_from x) (c_to x)) /\ nth_error stm (Z.to_nat (c_seg x)) <> None /\
     forall s, nth_error stm (Z.to_nat (c_seg x)) = Some s -> word_key w <> seg_key s).
Proof.
  split.
  - exists {| reduce_ref := false; reduce_hyp := false; feedback := false; ups := 100 |},
      [{| conv := [102]; turn := [65]; sp := ALT_BEGIN; t1 := 0; dur := 0 |}; {| conv := [102]; turn := [65]; sp := [97]; t1 := 10; dur := 4 |}]%N,
      [{| file := [102]; chan := [65]; s_t1 := 0; s_t2 := 100; text := [97] |}; {| file := [102]; chan := [65]; s_t1 := 100; s_t2 := 200; text := [97] |}]%N.
    split; [vm_compute; reflexivity|]. split; [discriminate|reflexivity].
  - eexists {| reduce_ref := false; reduce_hyp := false; feedback := false; ups := 100 |},
      [{| conv := [102]; turn := [65]; sp := ALT_BEGIN; t1 := 0; dur := 0 |}; {| conv := [102]; turn := [65]; sp := [97]; t1 := 10; dur := 4 |};
       {| conv := [102]; turn := [66]; sp := [98]; t1 := 10; dur := 4 |}; {| conv := [102]; turn := [66]; sp := [99]; t1 := 20; dur := 4 |}]%N,
      [{| file := [102]; chan := [65]; s_t1 := 0; s_t2 := 100; text := [97] |}; {| file := [102]; chan := [65]; s_t1 := 100; s_t2 := 200; text := [97] |};
       {| file := [102]; chan := [66]; s_t1 := 0; s_t2 := 100; text := [98] |}]%N, _, _, _, _.
    split; [vm_compute; reflexivity|]. split; [left; reflexivity|]. split; [left; reflexivity|].
    split; [right; right; left; reflexivity|]. split; [discriminate|].
    intros s E. injection E as <-. discriminate.
Qed.

(** "-m hyp": the flags "ignore" of the words of every channel. *)
Theorem C66_words : forall o hyp stm R H uss P,
  reduce_hyp o = true ->
  stm <> [] -> Runs seg_key stm R -> Runs word_key hyp H ->
  Forall2 (fun r us => Units (snd r) us /\ Forall flat us) H uss -> Forall (sane o) hyp -> Pairing R H P ->
  exists cs, align_ctm_to_stm o hyp stm = Ok (Some cs) /\
    Forall2 (fun p c => exists us fss segs, Units (snd p) us /\ flags c = List.concat fss /\
               (forall s, In s segs <-> In s (fst p) /\ used o (snd p) s) /\
               Forall2 (unit_flags segs) us fss) P cs.
Proof.
  intros o hyp stm R H uss P RF NE RR RH HU SN PP.
  assert (HU' : Forall2 (fun r us => Units (snd r) us) H uss) by (eapply Forall2_impl; [|exact HU]; intros a b [X _]; exact X).
  pose proof (proj1 (pairl_of _ _ _) PP) as PL.
  destruct (run_all o hyp stm R H uss NE RR RH HU' P [] PL) as (cs & E & D). exists cs. split; [exact E|].
  assert (HO : Forall (fun p => (forall us, Units (snd p) us -> Forall flat us) /\ Forall (sane o) (snd p)) P).
  { assert (SH : Forall (fun r => Forall (sane o) (snd r)) H).
    { clear - RH SN. induction RH as [|k l rest rs N0 F RR IH D]; constructor; apply Forall_app in SN as [A B]; [exact A|apply IH, B]. }
    clear - HU PP SH. revert uss HU. induction PP as [|k s w R H P PP IH|k s R H P D PP IH]; intros uss HU; constructor.
    - cbn [snd]. inversion HU as [|? us ? ? [Hu Ho] HU']; subst. inversion SH; subst. split; [|assumption]. intros us' Hus'.
      rewrite (units_unique _ _ _ Hus' Hu). exact Ho.
    - inversion HU; subst. inversion SH; subst. eapply IH; eauto.
    - cbn [snd]. split; [|constructor]. intros us [Eu _]. symmetry in Eu. apply units_nonempty in Eu. subst us. constructor.
    - eapply IH; eauto. }
  apply done_forall in D. eapply forall2_with; [exact D|exact HO|].
  intros [s w] c [HF HS] (us & [Ew Wu] & FL & _). cbn [fst snd] in *.
  rewrite Ew in HS.
  destruct (word_flags_spec o us s RF Wu (HF us (conj Ew Wu)) HS _ eq_refl) as (fss & E1 & E2).
  exists us, fss, (filter (seg_used o (flat_map spell us)) s). split; [split; auto|]. split; [rewrite FL, Ew; exact E1|].
  split; [|exact E2]. intro x. rewrite filter_In, seg_used_iff, Ew. tauto.
Qed.
(** Without "-m hyp" no word is ignored. *)
Theorem C66_none : forall o hyp stm R H uss P,
  reduce_hyp o = false ->
  stm <> [] -> Runs seg_key stm R -> Runs word_key hyp H -> Forall2 (fun r us => Units (snd r) us) H uss -> Pairing R H P ->
  exists cs, align_ctm_to_stm o hyp stm = Ok (Some cs) /\
    Forall2 (fun p c => flags c = repeat false (length (snd p))) P cs.
Proof.
  intros o hyp stm R H uss P RF NE RR RH HU PP.
  apply pairl_of in PP. destruct (run_all o hyp stm R H uss NE RR RH HU P [] PP) as (cs & E & D). exists cs. split; [exact E|].
  apply done_forall in D. eapply Forall2_impl; [|exact D]. intros [s w] c (us & _ & FL & _). cbn [fst snd] in *.
  rewrite FL. unfold word_flags. rewrite RF. clear. induction w; cbn [map length repeat]; congruence.
Qed.
(** "-m ref" can drop words: a word after the last used segment, before a dropped one, is given to none. *)
Theorem C66_lost_word_refuted : exists o hyp stm cs, reduce_ref o = true /\ reduce_hyp o = false /\
  align_ctm_to_stm o hyp stm = Ok (Some cs) /\
  exists c w, cs = [c] /\ In w hyp /\ ~ In w (List.concat (map (fun x => words_of hyp (c_from x) (c_to x)) (cuts c))).
Proof.
  eexists {| reduce_ref := true; reduce_hyp := false; feedback := true; ups := 100 |},
    [{| conv := [102]; turn := [65]; sp := [97]; t1 := 10; dur := 4 |}; {| conv := [102]; turn := [65]; sp := [98]; t1 := 110; dur := 4 |}]%N,
    [{| file := [102]; chan := [65]; s_t1 := 0; s_t2 := 100; text := [97] |}; {| file := [102]; chan := [65]; s_t1 := 200; s_t2 := 300; text := [97] |}]%N, _.
  split; [reflexivity|]. split; [reflexivity|]. split; [vm_compute; reflexivity|].
  eexists _, _. split; [reflexivity|]. split; [right; left; reflexivity|].
  intro X. vm_compute in X. destruct X as [X|[]]. discriminate X.
Qed.

(** A case: two channels, the second one without words; the first one has an alternation. *)
Definition ex_hyp : list word :=
  [{| conv := [102]; turn := [65]; sp := [97]; t1 := 10; dur := 4 |};
   {| conv := [102]; turn := [65]; sp := ALT_BEGIN; t1 := 0; dur := 0 |};
   {| conv := [102]; turn := [65]; sp := [98]; t1 := 90; dur := 10 |};
   {| conv := [102]; turn := [65]; sp := (ALT ++ [62]); t1 := 0; dur := 0 |};
   {| conv := [102]; turn := [65]; sp := [99]; t1 := 80; dur := 60 |};
   {| conv := [102]; turn := [65]; sp := ALT_END; t1 := 0; dur := 0 |};
   {| conv := [102]; turn := [65]; sp := [100]; t1 := 120; dur := 10 |}]%N.
Definition ex_stm : list seg :=
  [{| file := [102]; chan := [65]; s_t1 := 0; s_t2 := 100; text := [97] |};
   {| file := [102]; chan := [65]; s_t1 := 100; s_t2 := 200; text := [97] |};
   {| file := [102]; chan := [66]; s_t1 := 0; s_t2 := 100; text := IGNORE_2 |}]%N.
Definition ex_opts : opts := {| reduce_ref := false; reduce_hyp := true; feedback := true; ups := 100 |}.
Definition ex_us : list unit :=
  match ex_hyp with
  | [a; b; c; d; e; f; g] => [Word a; Alts b [c; d; e] f; Word g]
  | _ => []
  end.
Example channel_case : exists R H uss P,
  Runs seg_key ex_stm R /\ Runs word_key ex_hyp H /\
  Forall2 (fun r us => (Units (snd r) us /\ ordered us) /\ Forall flat us) H uss /\ Pairing R H P /\ Forall (sane ex_opts) ex_hyp /\
  length R = 2%nat /\ H <> [] /\
  align_ctm_to_stm ex_opts ex_hyp ex_stm = Ok (Some
    [{| cuts := [{| c_seg := 0; c_from := 1; c_to := 1; c_scored := true |}; {| c_seg := 1; c_from := 2; c_to := 7; c_scored := true |}];
        flags := [false; false; false; false; false; false; false] |};
     {| cuts := [{| c_seg := 2; c_from := 8; c_to := 7; c_scored := false |}]; flags := [] |}]).
Proof.
  exists [(([102], [65])%N, firstn 2 ex_stm); (([102], [66])%N, skipn 2 ex_stm)], [(([102], [65])%N, ex_hyp)], [ex_us],
    [(firstn 2 ex_stm, ex_hyp); (skipn 2 ex_stm, [])].
  split.
  { change ex_stm with (firstn 2 ex_stm ++ skipn 2 ex_stm ++ []) at 1.
    constructor; [discriminate|repeat constructor| |intro X; discriminate X].
    constructor; [discriminate|repeat constructor|constructor|exact I]. }
  split.
  { change ex_hyp with (ex_hyp ++ []) at 1. constructor; [discriminate|repeat constructor|constructor|exact I]. }
  split.
  { constructor; [|constructor]. cbn [snd]. split; [split|].
    - split; [reflexivity|]. constructor; [|constructor; [|constructor; [|constructor]]]; cbn [well_formed].
      + apply is_marker_false. reflexivity.
      + split; [reflexivity|]. split; [|reflexivity]. repeat constructor; discriminate.
      + apply is_marker_false. reflexivity.
    - exists [24; 220; 250]. split.
      + constructor; [reflexivity|]. constructor; [|constructor; [reflexivity|constructor]].
        split; [lia|]. split.
        * intros w Hw NM. cbn [spell app] in Hw.
          destruct Hw as [<-|[<-|[<-|[<-|[<-|[]]]]]]; cbn [t1 dur]; try lia.
        * right. eexists. split; [right; right; right; left; reflexivity|]. split; [apply is_marker_false; reflexivity|reflexivity].
      + repeat constructor; lia.
    - repeat constructor; discriminate. }
  split.
  { constructor. apply p_none; [exact I|]. constructor. }
  split.
  { repeat constructor; reflexivity. }
  split; [reflexivity|]. split; [discriminate|]. vm_compute. reflexivity.
Qed.
Example refused_case : exists o hyp stm R H uss k w,
  feedback o = false /\ stm <> [] /\ Runs seg_key stm R /\ Runs word_key hyp H /\
  Forall2 (fun r us => Units (snd r) us) H uss /\ In (k, w) H /\ (forall s, ~ In (k, s) R) /\ (~ exists P, Pairing R H P) /\
  align_ctm_to_stm o hyp stm = Ok None.
Proof.
  exists {| reduce_ref := false; reduce_hyp := false; feedback := false; ups := 100 |}, (firstn 1 ex_hyp), (skipn 2 ex_stm),
    [(([102], [66])%N, skipn 2 ex_stm)], [(([102], [65])%N, firstn 1 ex_hyp)], [firstn 1 ex_us], ([102], [65])%N, (firstn 1 ex_hyp).
  split; [reflexivity|]. split; [discriminate|].
  split. { change (skipn 2 ex_stm) with (skipn 2 ex_stm ++ []) at 1. constructor; [discriminate|repeat constructor|constructor|exact I]. }
  split. { change (firstn 1 ex_hyp) with (firstn 1 ex_hyp ++ []) at 1. constructor; [discriminate|repeat constructor|constructor|exact I]. }
  split. { constructor; [|constructor]. split; [reflexivity|]. constructor; [apply is_marker_false; reflexivity|constructor]. }
  split; [left; reflexivity|].
  assert (NR : forall s, ~ In (([102], [65])%N, s) [(([102], [66])%N, skipn 2 ex_stm)]).
  { intros s [X|[]]. discriminate X. }
  split; [exact NR|]. split; [|vm_compute; reflexivity].
  intros (P & PP). destruct (pairing_names _ _ _ PP _ _ (or_introl eq_refl)) as (s & A & _). exact (NR s A).
Qed.

Print Assumptions C63_assignment.
Print Assumptions C63_partition.
Print Assumptions C63_first_segment.
Print Assumptions C63_unterminated_refuted.
Print Assumptions C64_channels.
Print Assumptions C64_refused.
Print Assumptions C64_unknown_channel.
Print Assumptions C64_refused_feedback_refuted.
Print Assumptions C64_empty_reference_refuted.
Print Assumptions C66_words.
Print Assumptions C66_none.
Print Assumptions C66_lost_word_refuted.
