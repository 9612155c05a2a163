(** Proofs about Read_Model: the loop over the channels with the windows. *)
From Coq Require Import List NArith ZArith Arith Bool Lia.
From Verif Require Import Base Chan_Model Chan_Spec Chan_Proofs Chan_Proofs4 Read_Model Read_Spec Read_Proofs Read_Proofs3 Read_Proofs4 Read_Proofs5.
Import ListNotations.
Local Open Scope res_scope.
Local Open Scope Z_scope.

Definition loc_w (A : list mword) : Z :=
  match A with [] => -1 | k :: _ => match change_at (same_word k) 0 A with Some e => e | None => Z.of_nat (length A) - 1 end end.
Definition loc_s (A : list seg) : Z :=
  match A with [] => 0 | k :: _ => match change_at (same_seg k) 0 A with Some e => e | None => Z.of_nat (length A) end end.

Lemma same_word_refl k : same_word k k = true.
Proof. apply same_word_iff. reflexivity. Qed.
Lemma same_seg_refl k : same_seg k k = true.
Proof. apply same_seg_iff. reflexivity. Qed.

Lemma locate_words_loc hyp hs : 1 <= hs <= Z.of_nat (length hyp) + 1 -> locate_words hyp hs = hs + loc_w (skipn (Z.to_nat (hs - 1)) hyp).
Proof.
  intros R. unfold locate_words. pose proof (skipn_length (Z.to_nat (hs - 1)) hyp) as L.
  destruct (Z.eqb_spec hs (Z.of_nat (length hyp))) as [E|E].
  - destruct (skipn _ hyp) as [|k [|k2 r]]; cbn [length] in L; try lia. cbn [loc_w change_at]. rewrite same_word_refl. cbn [length]. lia.
  - destruct (skipn _ hyp) as [|k r]; cbn [length loc_w] in *; [lia|].
    replace hs with (0 + hs) at 1 by lia. rewrite change_shift.
    destruct (change_at (same_word k) 0 (k :: r)) as [e|]; cbn [option_map]; lia.
Qed.
Lemma locate_segs_loc stm ss : 0 <= ss <= Z.of_nat (length stm) -> locate_segs stm ss = ss + loc_s (skipn (Z.to_nat ss) stm).
Proof.
  intros R. unfold locate_segs. pose proof (skipn_length (Z.to_nat ss) stm) as L.
  destruct (Z.eqb_spec ss (Z.of_nat (length stm))) as [E|E].
  - destruct (skipn _ stm) as [|k r]; cbn [length] in L; try lia. cbn [loc_s]. lia.
  - destruct (skipn _ stm) as [|k r]; cbn [length loc_s] in *; [lia|].
    replace ss with (0 + ss) at 1 by lia. rewrite change_shift.
    destruct (change_at (same_seg k) 0 (k :: r)) as [e|]; cbn [option_map]; lia.
Qed.

Lemma change_exists {A} (same : A -> bool) y a c : same y = false -> forall x, exists e, change_at same x (a ++ y :: c) = Some e.
Proof.
  intros S. induction a as [|b a IH]; intros x; cbn [app change_at]; [rewrite S; eauto|]. destruct (same b); [apply IH|eauto].
Qed.
Definition enough_w (A X : list mword) : Prop := X = [] \/ conv_change A.
Lemma loc_w_enough A X : enough_w A X -> loc_w (A ++ X) = loc_w A /\ (X = [] \/ (A <> [] /\ loc_w A + 1 < Z.of_nat (length A))).
Proof.
  intros [->|(k & x & y & z & -> & F & D)]; [rewrite app_nil_r; auto|].
  destruct (change_exists (same_word k) y (k :: x) z) with (x := 0) as (e & E).
  { apply not_true. rewrite same_word_iff. unfold word_key. congruence. }
  pose proof (change_app _ _ X _ _ E) as E'. pose proof (change_bounds _ _ _ _ E) as B.
  unfold loc_w. cbn [app] in *. rewrite E, E'. split; [reflexivity|]. right. split; [discriminate|lia].
Qed.
Lemma loc_w_range A : -1 <= loc_w A <= Z.of_nat (length A) - 1 /\ (A <> [] -> 0 <= loc_w A).
Proof.
  destruct A as [|k r]; cbn [loc_w]; [cbn [length]; split; [lia|congruence]|].
  destruct (change_at (same_word k) 0 (k :: r)) as [e|] eqn:E.
  - cbn [change_at] in E. rewrite same_word_refl in E. apply change_bounds in E. cbn [length]. lia.
  - cbn [length]. lia.
Qed.
Definition seg_change (L : list seg) : Prop :=
  exists k x y z, L = (k :: x) ++ y :: z /\ file y <> file k.
Definition enough_s (A X : list seg) : Prop := X = [] \/ seg_change A.
Lemma loc_s_enough A X : enough_s A X -> loc_s (A ++ X) = loc_s A /\ (X = [] \/ (A <> [] /\ loc_s A + 1 < Z.of_nat (length A))).
Proof.
  intros [->|(k & x & y & z & -> & D)]; [rewrite app_nil_r; auto|].
  destruct (change_exists (same_seg k) y (k :: x) z) with (x := 0) as (e & E).
  { apply not_true. rewrite same_seg_iff. unfold seg_key. congruence. }
  pose proof (change_app _ _ X _ _ E) as E'. pose proof (change_bounds _ _ _ _ E) as B.
  unfold loc_s. cbn [app] in *. rewrite E, E'. split; [reflexivity|]. right. split; [discriminate|lia].
Qed.
Lemma loc_s_range A : 0 <= loc_s A <= Z.of_nat (length A).
Proof.
  destruct A as [|k r]; cbn [loc_s]; [cbn [length]; lia|].
  destruct (change_at (same_seg k) 0 (k :: r)) as [e|] eqn:E.
  - cbn [change_at] in E. rewrite same_seg_refl in E. apply change_bounds in E. cbn [length]. lia.
  - cbn [length]. lia.
Qed.

Lemma rbind_assoc {A B C} (a : res A) (f : A -> res B) (g : B -> res C) : rbind (rbind a f) g = rbind a (fun x => rbind (f x) g).
Proof. destruct a; reflexivity. Qed.
(** The channel, as seen, is the same in the window. *)
Lemma channel_window o hyp HYP X hs HS he stm STM Y ss SS re :
  1 <= hs <= Z.of_nat (length hyp) + 1 -> 1 <= HS <= Z.of_nat (length HYP) + 1 ->
  skipn (Z.to_nat (HS - 1)) HYP = skipn (Z.to_nat (hs - 1)) hyp ++ X ->
  hs - 1 <= he <= Z.of_nat (length hyp) -> (X = [] \/ he + 1 <= Z.of_nat (length hyp)) ->
  0 <= ss -> 0 <= SS -> skipn (Z.to_nat SS) STM = skipn (Z.to_nat ss) stm ++ Y ->
  Z.of_nat (length STM) - SS = Z.of_nat (length stm) - ss + Z.of_nat (length Y) ->
  ss <= re + 1 -> (Y = [] \/ re + 1 < Z.of_nat (length stm)) ->
  (let* c := align_one_channel o HYP STM HS (he + (HS - hs)) SS (re + (SS - ss)) in Ok (observe (map the_word HYP) STM c)) =
  (let* c := align_one_channel o hyp stm hs he ss re in Ok (observe (map the_word hyp) stm c)).
Proof.
  intros H1 H2 EW HE HX S1 S2 ES EN HR HY. unfold align_one_channel.
  assert (EW' : skipn (Z.to_nat (HS - 1)) (map the_word HYP) = skipn (Z.to_nat (hs - 1)) (map the_word hyp) ++ map the_word X).
  { rewrite !skipn_map, EW, map_app. reflexivity. }
  assert (NN : Z.of_nat (length HYP) - HS = Z.of_nat (length hyp) - hs + Z.of_nat (length X)).
  { apply (f_equal (@length mword)) in EW. rewrite app_length, !skipn_length in EW. lia. }
  assert (WS : words_of HYP HS (he + (HS - hs)) = words_of hyp hs he).
  { replace HS with (hs + (HS - hs)) at 1 by lia. apply (words_of_shift hyp HYP X hs HS); [lia|lia|exact EW|lia|]. destruct HX; [left; assumption|right; lia]. }
  assert (SG : segs_of STM SS (re + (SS - ss)) = segs_of stm ss re).
  { apply (segs_shift stm STM Y ss SS); [lia|lia|exact ES|]. destruct HY; [left; assumption|right; lia]. }
  rewrite WS, SG.
  set (ws := map the_word (words_of hyp hs he)). set (segs := segs_of stm ss re).
  destruct (loop_shift hyp HYP (HS - hs) hs he ltac:(lia) ltac:(lia) ltac:(lia)) with (stm := stm) (STM := STM) (b := SS - ss) (r_lo := ss) (r_end := re)
    (o := o) (ws := ws) (segs := segs) (rs := ss) (c := hs) (e := hs - 1) as [Ha Hb].
  - destruct HX as [->|HX]; [cbn [length] in NN|]; lia.
  - intros i Hi. apply (wd_shift hyp HYP X hs HS); [lia|lia|exact EW|lia|]. destruct HX; [left; assumption|right; lia].
  - intros i Hi. apply (nth_shift stm STM Y ss SS); [lia|lia|exact ES|lia|]. destruct HY; [left; assumption|right; lia].
  - intros i Hi. destruct HY as [->|HY].
    + cbn [length] in EN. destruct (Z.eqb_spec (i + (SS - ss)) (Z.of_nat (length STM) - 1)), (Z.eqb_spec i (Z.of_nat (length stm) - 1)); auto; lia.
    + rewrite !(proj2 (Z.eqb_neq _ _)) by lia. reflexivity.
  - lia.
  - lia.
  - unfold segs, segs_of. rewrite firstn_length. lia.
  - lia.
  - lia.
  - replace (ss + (SS - ss)) with SS in Ha by lia. replace (hs + (HS - hs)) with HS in Ha by lia.
    replace (hs - 1 + (HS - hs)) with (HS - 1) in Ha by lia. rewrite Ha.
    destruct (channel_loop o hyp stm ws he re segs ss hs (hs - 1)) as [l| | |]; cbn [rbind]; try reflexivity.
    specialize (Hb l eq_refl). f_equal. unfold observe. cbn [cuts flags]. f_equal. rewrite map_map. apply map_ext_in.
    intros c Hc. rewrite Forall_forall in Hb. destruct (Hb c Hc) as (R1 & R2 & R3). unfold moved. cbn [c_seg c_from c_to c_scored].
    rewrite (nth_shift stm STM Y ss SS); [|lia|lia|exact ES|lia|destruct HY; [left; assumption|right; lia]].
    rewrite (words_of_shift (map the_word hyp) (map the_word HYP) (map the_word X) hs HS); [reflexivity|lia|lia|exact EW'|lia|].
    destruct HX as [->|HX]; [left; reflexivity|right; rewrite map_length; lia].
Qed.

Definition tt_seg : seg := {| file := []; chan := []; s_t1 := 0; s_t2 := 0; text := [] |}.
Definition tt_word : mword := {| the_word := {| conv := []; turn := []; sp := []; t1 := 0; dur := 0 |}; alternate := false |}.
Section Loop.
  Variables numS numC : str -> Z.
  Variable cs : bool.
  Variable o : opts.
  Variable HYP : list mword.
  Variable STM : list seg.
  Notation StmFile := (StmFile numS cs).
  Notation CtmFile := (CtmFile numC cs).

  (** The windows against the whole files. *)
  Definition stm_inv (sw : swin) (sf : FILE) (rem : list sline) (SS : Z) : Prop :=
    StmFile (rest sf) rem /\ fine sf /\ 2 <= s_max sw /\ 0 <= s_s sw /\ Z.of_nat (length (s_segs sw)) + 1 <= s_max sw /\ 0 <= SS /\
    skipn (Z.to_nat SS) STM = skipn (Z.to_nat (s_s sw)) (map l_seg (s_segs sw)) ++ map l_seg rem /\
    Z.of_nat (length STM) - SS = Z.of_nat (length (s_segs sw)) - s_s sw + Z.of_nat (length rem).
  Definition ctm_inv (ww : cwin) (wf : FILE) (rem : list word) (HS : Z) : Prop :=
    CtmFile (rest wf) rem /\ fine wf /\ room (w_max ww) (w_words ww) /\ 1 <= w_s ww <= Z.of_nat (length (w_words ww)) + 1 /\
    1 <= HS <= Z.of_nat (length HYP) + 1 /\
    skipn (Z.to_nat (HS - 1)) HYP = w_ahead ww ++ mark_alternates (left_flag (map c_mword (w_words ww))) rem.

  Lemma stm_step sw sf rem SS : stm_inv sw sf rem SS -> (feof sf = true \/ s_s sw <= Z.of_nat (length (s_segs sw))) ->
    exists sw' sf' rem', fill_STM_structure numS (S (S (S (length (rest sf))))) cs false sw sf (feof sf) = Ok (sw', sf', feof sf') /\
      stm_inv sw' sf' rem' SS /\ ((feof sf' = true /\ rem' = []) \/ seg_change (skipn (Z.to_nat (s_s sw')) (map l_seg (s_segs sw')))).
  Proof.
    intros (I1 & I2 & I3 & I4 & I5 & I6 & I7 & I8) SB. destruct (feof sf) eqn:EF.
    - exists sw, sf, rem. rewrite EF. cbn [fill_STM_structure]. cbn [negb]. rewrite andb_false_r.
      split; [reflexivity|]. split; [repeat split; assumption|]. left. split; [reflexivity|]. apply (stm_nil numS cs). rewrite <- (I2 EF). exact I1.
    - destruct SB as [SB|SB]; [discriminate|].
      destruct (structure numS cs (S (S (S (length (rest sf))))) false sw sf rem I1 I2 I3 I4 I5) as (sw' & sf' & rem' & E & F1 & F2 & F3 & F4 & F5 & F6 & F7 & F8 & F9).
      { right. exact SB. } { rewrite EF. lia. }
      rewrite EF in E. exists sw', sf', rem'. split; [exact E|]. specialize (F7 SB).
      assert (AH : forall w, skipn (Z.to_nat (s_s w)) (map l_seg (s_segs w)) = map l_seg (ahead w)) by (intros; unfold ahead; apply skipn_map).
      split.
      + repeat split; try assumption.
        * rewrite I7, !AH, <- !map_app, F3. reflexivity.
        * apply (f_equal (@length sline)) in F3. rewrite !app_length in F3. unfold ahead in F3. rewrite !skipn_length in F3. lia.
      + destruct F9 as [F9|(k & x & y & z & Ea & _ & D)]; [left; exact F9|right].
        rewrite AH, Ea. exists (l_seg k), (map l_seg x), (l_seg y), (map l_seg z). split; [rewrite map_app; reflexivity|exact D].
  Qed.
  Lemma ctm_step ww wf rem HS : ctm_inv ww wf rem HS -> (feof wf = true \/ w_s ww <= Z.of_nat (length (w_words ww)) \/ (w_words ww = [] /\ w_s ww = 1)) ->
    exists ww' wf' rem', fill_WTOKE_structure numC cs ww wf = Ok (ww', wf') /\
      ctm_inv ww' wf' rem' HS /\ ((feof wf' = true /\ rem' = []) \/ conv_change (w_ahead ww')).
  Proof.
    intros (I1 & I2 & I3 & I4 & I5 & I6) SB. unfold fill_WTOKE_structure.
    destruct (wtoke numC cs (S (S (S (length (rest wf))))) ww wf rem (feof wf) I1 I2 I3 ltac:(lia)) as (ww' & wf' & rem' & E & F1 & F2 & F3 & F4 & F5 & F6).
    { auto. } { auto. } { exact SB. } { destruct (feof wf); lia. }
    exists ww', wf', rem'. split; [exact E|]. split.
    - split; [exact F1|]. split; [exact F2|]. split; [exact F3|]. split; [|split; [exact I5|congruence]]. split; [exact F4|].
      destruct F6 as [(_ & _ & F6)|(k & x & y & z & Ea & _)]; [apply F6; lia|].
      apply (f_equal (@length mword)) in Ea. unfold w_ahead in Ea. rewrite skipn_length, map_length, app_length in Ea. cbn [length] in Ea. lia.
    - destruct F6 as [(F6 & F7 & _)|F6]; [left; auto|right; exact F6].
  Qed.

  Lemma loops : forall m fuel FUEL sw sf rem ww wf remw SS HS, stm_inv sw sf rem SS -> ctm_inv ww wf remw HS ->
    (feof sf = true \/ s_s sw <= Z.of_nat (length (s_segs sw))) ->
    (feof wf = true \/ w_s ww <= Z.of_nat (length (w_words ww)) \/ (w_words ww = [] /\ w_s ww = 1)) ->
    Z.of_nat (length STM) + 1 - SS <= Z.of_nat m -> (m < fuel)%nat -> (m < FUEL)%nat ->
    files_loop numS numC fuel cs o sw sf (feof sf) ww wf =
      (let* r := channels_loop FUEL o HYP STM HS SS in Ok (option_map (map (observe (map the_word HYP) STM)) r)).
  Proof.
    induction m as [m IH] using lt_wf_ind. intros fuel FUEL sw sf rem ww wf remw SS HS IS IW SB WB M F1 F2.
    destruct fuel as [|fuel]; [lia|]. destruct FUEL as [|FUEL]; [lia|]. cbn [files_loop channels_loop].
    destruct (stm_step _ _ _ _ IS SB) as (sw1 & sf1 & rem1 & -> & IS1 & SE). cbn [rbind].
    destruct (ctm_step _ _ _ _ IW WB) as (ww1 & wf1 & remw1 & -> & IW1 & WE). cbn [rbind]. clear IS IW SB WB sw sf rem ww wf remw.
    destruct IS1 as (I1 & I2 & I3 & I4 & I5 & I6 & I7 & I8). destruct IW1 as (J1 & J2 & J3 & J4 & J5 & J6).
    set (stm := map l_seg (s_segs sw1)) in *. set (hyp := map c_mword (w_words ww1)) in *.
    set (ss := s_s sw1) in *. set (hs := w_s ww1) in *.
    set (X := mark_alternates (left_flag hyp) remw1) in *. set (Y := map l_seg rem1) in *.
    assert (Ln : length (w_words ww1) = length hyp) by (symmetry; apply map_length).
    assert (Lm : length (s_segs sw1) = length stm) by (symmetry; apply map_length).
    assert (Ly : length rem1 = length Y) by (symmetry; apply map_length).
    rewrite Ln in J4. rewrite Lm in I8. rewrite Ly in I8.
    unfold w_ahead in J6, WE. fold hyp hs in J6, WE.
    set (A := skipn (Z.to_nat (hs - 1)) hyp) in *. set (B := skipn (Z.to_nat ss) stm) in *.
    assert (WN : enough_w A X) by (destruct WE as [[_ WE]|WE]; [left; unfold X; rewrite WE; reflexivity|right; exact WE]).
    assert (SN : enough_s B Y) by (destruct SE as [[_ SE]|SE]; [left; unfold Y; rewrite SE; reflexivity|right; exact SE]).
    assert (LA : Z.of_nat (length A) = Z.of_nat (length hyp) + 1 - hs) by (unfold A; rewrite skipn_length; lia).
    assert (NN : Z.of_nat (length HYP) - HS = Z.of_nat (length hyp) - hs + Z.of_nat (length X)).
    { apply (f_equal (@length mword)) in J6. rewrite app_length, skipn_length in J6. lia. }
    destruct (loc_w_enough A X WN) as [LW WN']. destruct (loc_s_enough B Y SN) as [LS SN'].
    assert (SG : sg STM SS = sg stm ss).
    { unfold sg. replace SS with (ss + (SS - ss)) at 1 by lia. rewrite (nth_shift stm STM Y ss SS); [reflexivity|exact I4|exact I6|exact I7|lia|].
      destruct SN' as [E|[E _]]; [left; exact E|right]. unfold B in E. destruct (Z.ltb_spec ss (Z.of_nat (length stm))) as [G|G]; [exact G|].
      exfalso. apply E. apply skipn_all2. lia. }
    rewrite SG. destruct (if feedback o then sg stm ss else _) as [fb| | |]; cbn [rbind]; try reflexivity. clear fb.
    rewrite (locate_words_loc hyp hs) by exact J4. rewrite (locate_words_loc HYP HS) by exact J5. rewrite J6. fold A. rewrite LW.
    pose proof (loc_w_range A) as RW. pose proof (loc_s_range B) as RS.
    assert (C1 : (Z.of_nat (length HYP) <? HS) = (Z.of_nat (length hyp) <? hs)).
    { destruct WN' as [E|[E _]].
      - rewrite E in NN. cbn [length] in NN. destruct (Z.ltb_spec (Z.of_nat (length HYP)) HS), (Z.ltb_spec (Z.of_nat (length hyp)) hs); auto; lia.
      - assert (0 < Z.of_nat (length A)) by (destruct A; [congruence|cbn [length]; lia]). rewrite !(proj2 (Z.ltb_ge _ _)) by lia. reflexivity. }
    assert (LB : ss <= Z.of_nat (length stm) -> Z.of_nat (length B) = Z.of_nat (length stm) - ss) by (intros; unfold B; rewrite skipn_length; lia).
    assert (LB0 : Z.of_nat (length stm) < ss -> B = []) by (intros; unfold B; apply skipn_all2; lia).
    assert (C2 : (Z.of_nat (length STM) <? SS) = (Z.of_nat (length stm) <? ss)).
    { destruct SN' as [E|[E _]].
      - rewrite E in I8. cbn [length] in I8. destruct (Z.ltb_spec (Z.of_nat (length STM)) SS), (Z.ltb_spec (Z.of_nat (length stm)) ss); auto; lia.
      - destruct (Z.ltb_spec (Z.of_nat (length stm)) ss) as [G|G]; [exfalso; auto|]. apply Z.ltb_ge. lia. }
    rewrite C1, C2.
    (* the end of the words of the channel *)
    assert (SEL : exists he0 (g : option Z), hs - 1 <= he0 <= Z.of_nat (length hyp) /\ ((X = [] \/ he0 + 1 <= Z.of_nat (length hyp)) /\ (conv_change A -> he0 + 1 <= Z.of_nat (length hyp))) /\ (g = Some 0 -> ss <= Z.of_nat (length stm)) /\
       forall K1 K2 : option Z -> res (option (list seen)), (forall r, g = None -> K1 None = r -> K2 None = r) -> (g = Some 0 -> K1 (Some he0) = K2 (Some (he0 + (HS - hs)))) ->
       (let* hend' := (if Z.of_nat (length hyp) <? hs then let* _ := sg stm ss in Ok (Some (hs + loc_w A))
                   else if Z.of_nat (length stm) <? ss then Ok None
                   else let* w := wd hyp hs in
                        let* s := sg stm ss in
                        if str_eqb (conv w) (file s) && str_eqb (turn w) (chan s) then Ok (Some (hs + loc_w A))
                        else Ok (Some (hs - 1))) in K1 hend') =
       (let* hend' := (if Z.of_nat (length hyp) <? hs then let* _ := sg stm ss in Ok (Some (HS + loc_w A))
                   else if Z.of_nat (length stm) <? ss then Ok None
                   else let* w := wd HYP HS in
                        let* s := sg stm ss in
                        if str_eqb (conv w) (file s) && str_eqb (turn w) (chan s) then Ok (Some (HS + loc_w A))
                        else Ok (Some (HS - 1))) in K2 hend')).
    { assert (WD : wd HYP HS = wd hyp hs).
      { replace HS with (hs + (HS - hs)) by lia. apply (wd_shift hyp HYP X hs HS); [lia|lia|exact J6|lia|].
        destruct WN' as [E|[E _]]; [left; exact E|right]. assert (0 < Z.of_nat (length A)) by (destruct A; [congruence|cbn [length]; lia]). lia. }
      rewrite WD.
      assert (RG : hs - 1 <= hs + loc_w A <= Z.of_nat (length hyp) /\ ((X = [] \/ hs + loc_w A + 1 <= Z.of_nat (length hyp)) /\ (conv_change A -> hs + loc_w A + 1 <= Z.of_nat (length hyp)))).
      { split; [lia|]. split; [destruct WN' as [E|[E E']]; [left; exact E|right; lia]|].
        intros CC. destruct (loc_w_enough A [tt_word] (or_intror CC)) as [_ [E|[E1 E]]]; [discriminate E|lia]. }
      assert (RG' : hs - 1 <= hs - 1 <= Z.of_nat (length hyp) /\ ((X = [] \/ hs - 1 + 1 <= Z.of_nat (length hyp)) /\ (conv_change A -> hs - 1 + 1 <= Z.of_nat (length hyp)))).
      { split; [lia|]. split; [destruct WN' as [E|[E E']]; [left; exact E|right; lia]|].
        intros CC. destruct (loc_w_enough A [tt_word] (or_intror CC)) as [_ [E|[E1 E]]]; [discriminate E|lia]. }
      assert (SGB : forall s, sg stm ss = Ok s -> ss <= Z.of_nat (length stm)).
      { intros s Hs. unfold sg in Hs. destruct (nth_error stm (Z.to_nat ss)) eqn:EN; [|discriminate].
        assert (nth_error stm (Z.to_nat ss) <> None) as NN' by congruence. apply nth_error_Some in NN'. lia. }
      destruct (Z.of_nat (length hyp) <? hs).
      - destruct (sg stm ss) as [s| | |] eqn:Es; cbn [rbind].
        + exists (hs + loc_w A), (Some 0). split; [apply RG|]. split; [apply RG|]. split; [intros _; eapply SGB; reflexivity|].
          intros K1 K2 _ HK. rewrite (HK eq_refl). do 2 f_equal. lia.
        + exists (hs + loc_w A), None. split; [apply RG|]. split; [apply RG|]. split; [discriminate|reflexivity].
        + exists (hs + loc_w A), None. split; [apply RG|]. split; [apply RG|]. split; [discriminate|reflexivity].
        + exists (hs + loc_w A), None. split; [apply RG|]. split; [apply RG|]. split; [discriminate|reflexivity].
      - destruct (Z.ltb_spec (Z.of_nat (length stm)) ss) as [G|G].
        + exists (hs + loc_w A), None. split; [apply RG|]. split; [apply RG|]. split; [discriminate|].
          intros K1 K2 HK _. cbn [rbind]. symmetry. apply HK; reflexivity.
        + destruct (wd hyp hs) as [w| | |]; cbn [rbind]; try (exists (hs + loc_w A), None; split; [apply RG|]; split; [apply RG|]; split; [discriminate|reflexivity]).
          destruct (sg stm ss) as [s| | |] eqn:Es; cbn [rbind]; try (exists (hs + loc_w A), None; split; [apply RG|]; split; [apply RG|]; split; [discriminate|reflexivity]).
          destruct (str_eqb (conv w) (file s) && str_eqb (turn w) (chan s)); cbn [rbind].
          * exists (hs + loc_w A), (Some 0). split; [apply RG|]. split; [apply RG|]. split; [intros _; exact G|].
            intros K1 K2 _ HK. rewrite (HK eq_refl). do 2 f_equal. lia.
          * exists (hs - 1), (Some 0). split; [apply RG'|]. split; [apply RG'|]. split; [intros _; exact G|].
            intros K1 K2 _ HK. rewrite (HK eq_refl). do 2 f_equal. lia. }
    destruct SEL as (he & g & HE1 & (HE2 & HE3) & HG & SEL).
    rewrite rbind_assoc. apply SEL; clear SEL.
    { intros r _ <-. reflexivity. }
    intros Eg. specialize (HG Eg). specialize (LB HG).
    cbv beta iota. rewrite (locate_segs_loc stm ss) by lia. rewrite (locate_segs_loc STM SS) by lia. rewrite I7. fold B. rewrite LS.
    set (re := ss + loc_s B).
    replace (SS + loc_s B) with (re + (SS - ss)) by (unfold re; lia).
    assert (HY : Y = [] \/ re + 1 < Z.of_nat (length stm)).
    { destruct SN' as [E|[E E']]; [left; exact E|right; unfold re; lia]. }
    pose proof (channel_window o hyp HYP X hs HS he stm STM Y ss SS re ltac:(lia) ltac:(lia) J6 HE1 HE2 I4 I6 I7 I8 ltac:(unfold re; lia) HY) as CW.
    rewrite rbind_assoc.
    destruct (align_one_channel o hyp stm hs he ss re) as [c| | |]; destruct (align_one_channel o HYP STM HS (he + (HS - hs)) SS (re + (SS - ss))) as [C| | |];
      cbn [rbind] in CW |- *; try discriminate CW; try reflexivity.
    assert (CW' : observe (map the_word HYP) STM C = observe (map the_word hyp) stm c) by congruence. clear CW. rename CW' into CW.
    assert (C3 : (he + (HS - hs) + 1 <=? Z.of_nat (length HYP)) = (he + 1 <=? Z.of_nat (length hyp))).
    { destruct HE2 as [E|E].
      - rewrite E in NN. cbn [length] in NN. destruct (Z.leb_spec (he + (HS - hs) + 1) (Z.of_nat (length HYP))), (Z.leb_spec (he + 1) (Z.of_nat (length hyp))); auto; lia.
      - rewrite !(proj2 (Z.leb_le _ _)) by lia. reflexivity. }
    assert (C4 : (re + (SS - ss) + 1 <? Z.of_nat (length STM)) = (re + 1 <? Z.of_nat (length stm))).
    { destruct HY as [E|E].
      - rewrite E in I8. cbn [length] in I8. destruct (Z.ltb_spec (re + (SS - ss) + 1) (Z.of_nat (length STM))), (Z.ltb_spec (re + 1) (Z.of_nat (length stm))); auto; lia.
      - rewrite !(proj2 (Z.ltb_lt _ _)) by lia. reflexivity. }
    rewrite C3, C4.
    destruct ((he + 1 <=? Z.of_nat (length hyp)) || (re + 1 <? Z.of_nat (length stm))) eqn:EC.
    - rewrite (IH (m - 1)%nat ltac:(lia) fuel FUEL {| s_max := s_max sw1; s_s := re + 1; s_segs := s_segs sw1 |} sf1 rem1
        {| w_max := w_max ww1; w_s := he + 1; w_words := w_words ww1 |} wf1 remw1 (re + (SS - ss) + 1) (he + (HS - hs) + 1)).
      + rewrite !rbind_assoc. destruct (channels_loop FUEL o HYP STM (he + (HS - hs) + 1) (re + (SS - ss) + 1)) as [r| | |]; cbn [rbind]; try reflexivity.
        f_equal. destruct r as [r|]; cbn [option_map map]; [rewrite CW|]; reflexivity.
      + unfold stm_inv. cbn [s_max s_s s_segs]. fold stm Y. rewrite Lm, Ly.
        split; [exact I1|]. split; [exact I2|]. split; [exact I3|]. split; [unfold re; lia|]. split; [rewrite <- Lm; exact I5|]. split; [unfold re; lia|]. split; [|lia].
        replace (Z.to_nat (re + (SS - ss) + 1)) with (Z.to_nat SS + Z.to_nat (loc_s B + 1))%nat by (unfold re; lia).
        rewrite <- skip_skip, I7. fold B.
        replace (Z.to_nat (re + 1)) with (Z.to_nat ss + Z.to_nat (loc_s B + 1))%nat by (unfold re; lia). rewrite <- skip_skip. fold B.
        destruct SN' as [E|[E E']]; [rewrite E, !app_nil_r; reflexivity|]. rewrite skipn_app.
        replace (Z.to_nat (loc_s B + 1) - length B)%nat with O by lia. reflexivity.
      + unfold ctm_inv. cbn [w_max w_s w_words]. fold hyp X. rewrite Ln.
        split; [exact J1|]. split; [exact J2|]. split; [exact J3|]. split; [lia|]. split.
        { destruct HE2 as [E|E]; [rewrite E in NN; cbn [length] in NN|]; lia. }
        unfold w_ahead. cbn [w_s w_words]. fold hyp.
        replace (Z.to_nat (he + (HS - hs) + 1 - 1)) with (Z.to_nat (HS - 1) + Z.to_nat (he + 1 - hs))%nat by lia.
        rewrite <- skip_skip, J6. fold A.
        replace (Z.to_nat (he + 1 - 1)) with (Z.to_nat (hs - 1) + Z.to_nat (he + 1 - hs))%nat by lia. rewrite <- skip_skip. fold A.
        destruct HE2 as [E|E]; [rewrite E, !app_nil_r; reflexivity|]. rewrite skipn_app.
        replace (Z.to_nat (he + 1 - hs) - length A)%nat with O by lia. reflexivity.
      + cbn [s_s s_segs]. rewrite Lm. destruct SE as [[SE _]|SE]; [left; exact SE|right].
        destruct (loc_s_enough B [tt_seg] (or_intror SE)) as [_ [E|[_ E]]]; [discriminate E|unfold re; lia].
      + cbn [w_s w_words]. rewrite Ln. destruct WE as [[WE _]|WE]; [left; exact WE|right; left].
        apply HE3, WE.
      + unfold re. lia.
      + lia.
      + lia.
    - cbn [rbind option_map map]. rewrite CW. reflexivity.
  Qed.
End Loop.
