(** The reader, item by item: between the items. *)
From Coq Require Import String List ZArith NArith Arith Bool Lia.
From Verif Require Import Base Store_Model Graph_Model Links_Model Links_Spec Ctm_Model Ctm_Spec Ctm_Proofs1 Ctm_Proofs2 Ctm_Proofs3.
Import ListNotations.
Local Open Scope res_scope.

Section Run.
Variable ms : str -> Z.

(** * The five kinds of words *)
Definition seg1 (src chan : str) (b d : Z) (f l : list nat) : cseg :=
  {| cs_src := src; cs_chan := chan; cs_start := b; cs_end := b + d; cs_first := f; cs_last := l |}.

Lemma word_outside_eq : forall st src chan text b d conf,
  (c_isfirst st = true \/ exists p, c_prec st = Some p) ->
  word_outside st src chan text b d conf = Ok (mkC (c_toks st ++ [tok text b d conf (Some (length (c_segs st)))])
    (c_segs st ++ [seg1 src chan b d [length (c_toks st)] [length (c_toks st)]])
    (if c_isfirst st then c_links st else match c_prec st with Some p => link (c_links st) p (length (c_toks st)) | None => c_links st end)
    (Some (length (c_toks st))) false (c_ptok st) (c_alt st) (c_palt st) (c_begin st) (c_inside st) (c_isalt st) (c_isend st) (c_useconf st) (c_bufs st)).
Proof.
  intros st src chan text b d conf HP. unfold word_outside, new_seg, new_tok.
  set (st1 := set_toks _ _). cbn [c_toks set_segs].
  rewrite (add_first_eq st1 (c_segs st) (seg1 src chan b d [] []) [] (c_toks st) (tok text b d conf (Some (length (c_segs st)))) []); [|reflexivity|reflexivity|cbn; lia].
  cbn [rbind]. set (st2 := set_segs st1 _).
  rewrite (add_last_eq st2 (c_segs st) (seg1 src chan b d [length (c_toks st)] []) [] (c_toks st) (tok text b d conf (Some (length (c_segs st)))) []); [|reflexivity|reflexivity|cbn; lia].
  cbn [rbind]. set (st3 := set_segs st2 _). change (c_isfirst st3) with (c_isfirst st). destruct (c_isfirst st).
  - reflexivity.
  - destruct HP as [HP|(p & HP)]; [discriminate|]. change (c_prec st3) with (c_prec st). rewrite HP. reflexivity.
Qed.

Lemma word_end_eq : forall st dsegs s tx tk src chan text b d conf, c_segs st = dsegs ++ [s] -> c_toks st = tx ++ [tk] ->
  c_alt st = Some (length dsegs) -> c_ptok st = Some (length tx) -> (ct_end tk <= cs_end s)%Z ->
  word_end st src chan text b d conf = Ok (mkC (c_toks st ++ [tok text b d conf (Some (length dsegs))])
    ((dsegs ++ [seg_upd s (cs_end s) (cs_first s) (cs_last s ++ [length tx])]) ++ [seg1 src chan b d [length (c_toks st)] [length (c_toks st)]])
    (fold_left linkp (map (fun p => (p, length (c_toks st))) (cs_last s ++ [length tx])) (c_links st))
    (Some (length (c_toks st))) (c_isfirst st) None None None (c_begin st) false (c_isalt st) false (c_useconf st) (c_bufs st)).
Proof.
  intros st dsegs s tx tk src chan text b d conf E1 E2 E3 E4 H. unfold word_end, new_seg, new_tok.
  set (st1 := set_toks _ _). cbn [c_toks set_segs]. change (c_alt (set_segs st _)) with (c_alt st) in st1.
  rewrite (add_first_eq st1 (c_segs st) (seg1 src chan b d [] []) [] (c_toks st) (tok text b d conf (c_alt st)) []); [|reflexivity|reflexivity|cbn; lia].
  cbn [rbind]. set (st2 := set_segs st1 _).
  rewrite (add_last_eq st2 (c_segs st) (seg1 src chan b d [length (c_toks st)] []) [] (c_toks st) (tok text b d conf (c_alt st)) []); [|reflexivity|reflexivity|cbn; lia].
  cbn [rbind]. set (st3 := set_segs st2 _). change (c_alt st3) with (c_alt st). change (c_ptok st3) with (c_ptok st). rewrite E3, E4.
  rewrite (add_last_eq st3 dsegs s [seg1 src chan b d [length (c_toks st)] [length (c_toks st)]] tx tk [tok text b d conf (c_alt st)]).
  - cbn [rbind]. set (st4 := set_segs st3 _). change (c_alt st4) with (c_alt st). rewrite E3. unfold link_lasts.
    change (c_segs st4) with (dsegs ++ seg_upd s (cs_end s) (cs_first s) (cs_last s ++ [length tx]) :: [seg1 src chan b d [length (c_toks st)] [length (c_toks st)]]).
    rewrite deref_mid. cbn [rbind]. rewrite link_fold. cbn [cs_last seg_upd]. rewrite <- app_assoc. cbn [app].
    rewrite <- E3. reflexivity.
  - change (c_segs st3) with (c_segs st ++ [seg1 src chan b d [length (c_toks st)] [length (c_toks st)]]). rewrite E1, <- app_assoc. reflexivity.
  - change (c_toks st3) with (c_toks st ++ [tok text b d conf (c_alt st)]). rewrite E2, <- app_assoc. reflexivity.
  - exact H.
Qed.

(** <ALT_BEGIN> after a word or at the begin of the file *)
Lemma word_begin_eq : forall st src chan text b d conf, c_isend st = false ->
  (c_isfirst st = true \/ exists p, c_prec st = Some p) ->
  word_begin st src chan text b d conf = Ok (mkC (c_toks st ++ [tok text b d conf (Some (length (c_segs st)))])
    (c_segs st ++ [seg1 src chan b d [length (c_toks st)] []])
    (if c_isfirst st then c_links st else match c_prec st with Some p => link (c_links st) p (length (c_toks st)) | None => c_links st end)
    (c_prec st) false (Some (length (c_toks st))) (Some (length (c_segs st))) (c_alt st) false (c_inside st) (c_isalt st) (c_isend st) (c_useconf st) (c_bufs st)).
Proof.
  intros st src chan text b d conf HE HP. unfold word_begin, new_seg, new_tok.
  set (st1 := set_toks _ _). cbn [c_toks set_segs]. change (c_isfirst st1) with (c_isfirst st). change (c_isend st1) with (c_isend st).
  rewrite HE. set (l := if c_isfirst st then c_links st else _).
  assert (E : (if c_isfirst st then Ok st1 else link_from st1 (c_prec st1) (length (c_toks st))) = Ok (set_links st1 l)).
  { subst l. destruct (c_isfirst st) eqn:E.
    - reflexivity.
    - destruct HP as [HP|(p & HP)]; [discriminate|]. change (c_prec st1) with (c_prec st). rewrite HP. reflexivity. }
  rewrite E. cbn [rbind]. set (st2 := set_links st1 l).
  rewrite (add_first_eq st2 (c_segs st) (seg1 src chan b d [] []) [] (c_toks st) (tok text b d conf (Some (length (c_segs st)))) []); [|reflexivity|reflexivity|cbn; lia].
  cbn [rbind]. cbn. rewrite HE. reflexivity.
Qed.
(** <ALT_BEGIN> after <ALT_END> *)
Lemma word_begin_eq2 : forall st dsegs s tx tk src chan text b d conf, c_isend st = true -> c_isfirst st = false ->
  c_segs st = dsegs ++ [s] -> c_toks st = tx ++ [tk] ->
  c_alt st = Some (length dsegs) -> c_ptok st = Some (length tx) -> (ct_end tk <= cs_end s)%Z ->
  word_begin st src chan text b d conf = Ok (mkC (c_toks st ++ [tok text b d conf (Some (length (c_segs st)))])
    ((dsegs ++ [seg_upd s (cs_end s) (cs_first s) (cs_last s ++ [length tx])]) ++ [seg1 src chan b d [length (c_toks st)] []])
    (fold_left linkp (map (fun p => (p, length (c_toks st))) (cs_last s ++ [length tx])) (c_links st))
    (c_prec st) false (Some (length (c_toks st))) (Some (length (c_segs st))) (c_alt st) false (c_inside st) (c_isalt st) false (c_useconf st) (c_bufs st)).
Proof.
  intros st dsegs s tx tk src chan text b d conf HE HI E1 E2 E3 E4 H. unfold word_begin, new_seg, new_tok.
  set (st1 := set_toks _ _). cbn [c_toks set_segs]. change (c_isfirst st1) with (c_isfirst st). change (c_isend st1) with (c_isend st).
  rewrite HE, HI. change (c_alt st1) with (c_alt st). change (c_ptok st1) with (c_ptok st). rewrite E3, E4.
  rewrite (add_last_eq st1 dsegs s [seg1 src chan b d [] []] tx tk [tok text b d conf (Some (length (c_segs st)))]).
  - cbn [rbind]. set (st4 := set_segs st1 _). change (c_alt st4) with (c_alt st). rewrite E3. unfold link_lasts.
    change (c_segs st4) with (dsegs ++ seg_upd s (cs_end s) (cs_first s) (cs_last s ++ [length tx]) :: [seg1 src chan b d [] []]).
    rewrite deref_mid. cbn [rbind]. rewrite link_fold. cbn [cs_last seg_upd]. set (st5 := set_flags _ _ _ _ _).
    assert (EL : length (c_segs st) = length (dsegs ++ [seg_upd s (cs_end s) (cs_first s) (cs_last s ++ [length tx])])) by (rewrite E1, !app_length; reflexivity).
    assert (EF : add_first st5 (Some (length (c_segs st))) (Some (length (c_toks st))) =
      Ok (set_segs st5 ((dsegs ++ [seg_upd s (cs_end s) (cs_first s) (cs_last s ++ [length tx])]) ++ [seg1 src chan b d [length (c_toks st)] []]))).
    { rewrite EL.
      rewrite (add_first_eq st5 _ (seg1 src chan b d [] []) [] (c_toks st) (tok text b d conf (Some (length (c_segs st)))) []).
      - reflexivity.
      - unfold st5, st4. cbn [c_segs set_flags set_links set_segs]. rewrite <- app_assoc. reflexivity.
      - reflexivity.
      - cbn. lia. }
    rewrite EF. cbn [rbind]. cbn. rewrite E3. reflexivity.
  - change (c_segs st1) with (c_segs st ++ [seg1 src chan b d [] []]). rewrite E1, <- app_assoc. reflexivity.
  - change (c_toks st1) with (c_toks st ++ [tok text b d conf (Some (length (c_segs st)))]). rewrite E2, <- app_assoc. reflexivity.
  - exact H.
Qed.

(** * Items *)
Lemma between_begin : forall done st t ws e, between ms done st -> tag_line t ALT_BEGIN -> entry_line ws e ->
  exists st', words_loop ms st [t; ws] = Ok st' /\ mid ms done [] [e] st'.
Proof.
  intros done st t ws e B HTG HE. cbn [words_loop].
  destruct (tag_step ms st t ALT_BEGIN (bt_bufs _ _ _ B) HTG) as (u0 & bs0 & x1 & x2 & x3 & x4 & x5 & Hbs0 & E0).
  rewrite E0, act_begin. clear E0. cbn [rbind].
  set (st1 := set_flags _ _ _ _ _).
  assert (Hb1 : length (c_bufs st1) = 6) by exact Hbs0.
  destruct (entry_step ms st1 ws e Hb1 HE) as (u & bs & Hbs & E). rewrite E. clear E.
  destruct HE as (_ & HT & _). rewrite act_word by exact HT.
  pose proof (len_entries ms _ _ B) as HL.
  destruct B as [T LK _ SG F1 F2 F3 PA TL]. pose proof (owner_len ms _ _ SG) as HO.
  set (st2 := set_scan st1 u bs). change (c_begin st2) with true. cbv iota.
  destruct TL as [(Ed & I1 & I2 & I3 & I4 & I5)|[(I1 & I2 & I4 & I5 & LA & d & e0 & p & Ed & I3 & HP)|
    (I1 & I2 & d & alts & dsegs & s & tx & tk & Ed & Es & LA & I4 & Et & I5 & HEnd & HP)]].
  - rewrite (word_begin_eq st2) by (auto). cbn [rbind]. eexists. split; [reflexivity|].
    unfold st2, st1. cbn [c_toks c_segs c_links c_prec c_isfirst c_ptok c_alt c_palt c_begin c_inside c_isalt c_isend c_useconf c_bufs set_scan set_flags].
    rewrite I1, F3, I2. constructor; cbn [c_toks c_links c_bufs c_isfirst c_begin c_inside c_isalt c_isend c_segs c_alt c_ptok]; auto; try discriminate.
    + subst done. cbn [concat app]. apply F2_app; [exact T|]. constructor; [|constructor]. repeat split.
    + subst done. rewrite LK. reflexivity.
    + rewrite !map_app, PA, HO. reflexivity.
    + exists (c_segs st). eexists _, (c_toks st), _. split; [reflexivity|]. split; [exact SG|]. split.
      { destruct SG as [Hs _]. subst done. inversion Hs. reflexivity. }
      split; [apply segment_one with e; reflexivity|]. split; [rewrite HL; reflexivity|]. split; [reflexivity|].
      split; [reflexivity|]. split; [reflexivity|]. split; [reflexivity|]. split; [cbn; lia|].
      unfold from_here. cbn [c_palt c_prec]. rewrite I4, I3. subst done. reflexivity.
  - rewrite (word_begin_eq st2) by (first [exact I2|right; exists p; exact I3]). cbn [rbind]. eexists. split; [reflexivity|].
    unfold st2, st1. cbn [c_toks c_segs c_links c_prec c_isfirst c_ptok c_alt c_palt c_begin c_inside c_isalt c_isend c_useconf c_bufs set_scan set_flags].
    rewrite I1, F3, I2, I3. constructor; cbn [c_toks c_links c_bufs c_isfirst c_begin c_inside c_isalt c_isend c_segs c_alt c_ptok]; auto; try discriminate.
    + cbn [concat app]. apply F2_app; [exact T|]. constructor; [|constructor]. repeat split.
    + rewrite LK, HP, <- linked_snoc, HL. reflexivity.
    + rewrite !map_app, PA, HO. reflexivity.
    + exists (c_segs st). eexists _, (c_toks st), _. split; [reflexivity|]. split; [exact SG|]. split; [exact LA|].
      split; [apply segment_one with e; reflexivity|]. split; [rewrite HL; reflexivity|]. split; [reflexivity|].
      split; [reflexivity|]. split; [reflexivity|]. split; [reflexivity|]. split; [cbn; lia|].
      unfold from_here. cbn [c_palt c_prec]. rewrite I4. exact HP.
  - rewrite (word_begin_eq2 st2 dsegs s tx tk) by assumption. cbn [rbind]. eexists. split; [reflexivity|].
    unfold st2, st1. cbn [c_toks c_segs c_links c_prec c_isfirst c_ptok c_alt c_palt c_begin c_inside c_isalt c_isend c_useconf c_bufs set_scan set_flags].
    rewrite F3.
    destruct (close_group ms d alts (c_segs st) dsegs s (length tx)) as [SG' LA']; [subst done; exact SG|exact Es|exact LA|subst done; exact HP|].
    rewrite <- Ed in SG', LA'.
    constructor; cbn [c_toks c_links c_bufs c_isfirst c_begin c_inside c_isalt c_isend c_segs c_alt c_ptok]; auto; try discriminate.
    + cbn [concat app]. apply F2_app; [exact T|]. constructor; [|constructor]. repeat split.
    + rewrite LK, HP, HL. rewrite alts_at_snoc, grp_pairs_snoc. cbn [length concat]. rewrite enter_one, Nat.add_0_r. cbn [alts_at]. unfold grp_pairs. cbn [map concat app].
      rewrite linked_app. reflexivity.
    + rewrite !map_app, PA, HO. reflexivity.
    + eexists _, _, (c_toks st), _. split; [reflexivity|]. split; [exact SG'|]. split; [exact LA'|].
      split; [apply segment_one with e; reflexivity|]. split; [rewrite HL; reflexivity|]. split; [reflexivity|].
      split; [rewrite Es, !app_length; reflexivity|]. split; [reflexivity|]. split; [reflexivity|]. split; [cbn; lia|].
      unfold from_here. cbn [c_palt c_prec]. rewrite I4. eexists. split; [rewrite nth_error_app2, Nat.sub_diag by lia; reflexivity|].
      cbn [cs_last seg_upd]. exact HP.
Qed.

Lemma between_word : forall done st ws e, between ms done st -> entry_line ws e ->
  exists st', words_step ms st ws = Ok st' /\ between ms (done ++ [Word e]) st'.
Proof.
  intros done st ws e B HE. destruct (entry_step ms st ws e (bt_bufs _ _ _ B) HE) as (u & bs & Hbs & E). rewrite E. clear E.
  destruct HE as (_ & HT & _). rewrite act_word by exact HT.
  pose proof (len_entries ms _ _ B) as HL.
  destruct B as [T LK _ SG F1 F2 F3 PA TL]. pose proof (owner_len ms _ _ SG) as HO.
  set (st2 := set_scan st u bs). change (c_begin st2) with (c_begin st). change (c_isalt st2) with (c_isalt st). change (c_inside st2) with (c_inside st).
  change (c_isend st2) with (c_isend st). rewrite F1, F2, F3. cbv iota.
  assert (TE : forall p, Forall2 (token_of ms) (entries (done ++ [Word e])) (c_toks st ++ [tok (e_text e) (ms (e_begin e)) (ms (e_dur e)) (e_conf e) p])).
  { intros p. rewrite entries_app. apply F2_app; [exact T|]. constructor; [|constructor]. repeat split. }
  assert (SE : forall segs n, segs_ok ms done segs -> n = length (entries done) ->
     segs_ok ms (done ++ [Word e]) (segs ++ [seg1 (e_src e) (e_chan e) (ms (e_begin e)) (ms (e_dur e)) [n] [n]])).
  { intros segs n [H1 H2] ->. constructor.
    - apply F2_app; [exact H1|]. constructor; [|constructor]. apply segment_one with e; reflexivity.
    - rewrite layout_snoc, !map_app, H2. reflexivity. }
  assert (PE : prevs [] (layout (done ++ [Word e])) = [length (entries done)]) by (rewrite layout_snoc, prevs_snoc; reflexivity).
  destruct TL as [(Ed & I1 & I2 & I3 & I4 & I5)|[(I1 & I2 & I4 & I5 & LA & d & e0 & p & Ed & I3 & HP)|
    (I1 & I2 & d & alts & dsegs & s & tx & tk & Ed & Es & LA & I4 & Et & I5 & HEnd & HP)]]; rewrite I2.
  - assert (EG : ends_group done = false) by (subst done; reflexivity).
    rewrite (word_outside_eq st2) by auto. eexists. split; [reflexivity|].
    unfold st2. cbn [c_toks c_segs c_links c_prec c_isfirst c_ptok c_alt c_palt c_begin c_inside c_isalt c_isend c_useconf c_bufs set_scan].
    rewrite I1. constructor; cbn [c_toks c_links c_bufs c_isfirst c_begin c_inside c_isalt c_isend c_segs c_alt c_ptok c_palt c_prec]; auto.
    + subst done. rewrite LK. reflexivity.
    + rewrite parents_snoc, !map_app, PA. f_equal. cbn [map ct_parent tok own]. rewrite EG, HO. reflexivity.
    + right. left. split; [reflexivity|]. split; [exact I2|]. split; [exact I4|]. split; [exact I5|]. split.
      { subst done. destruct SG as [Hs _]. inversion Hs. rewrite HL. reflexivity. }
      exists done, e, (length (c_toks st)). rewrite HL. auto.
  - assert (EG : ends_group done = false) by (subst done; unfold ends_group; rewrite rev_app_distr; reflexivity).
    rewrite (word_outside_eq st2) by (right; exists p; exact I3). eexists. split; [reflexivity|].
    unfold st2. cbn [c_toks c_segs c_links c_prec c_isfirst c_ptok c_alt c_palt c_begin c_inside c_isalt c_isend c_useconf c_bufs set_scan].
    rewrite I1, I3. constructor; cbn [c_toks c_links c_bufs c_isfirst c_begin c_inside c_isalt c_isend c_segs c_alt c_ptok c_palt c_prec]; auto.
    + rewrite LK, layout_snoc, pairs_of_snoc, HP, HL, <- linked_snoc. reflexivity.
    + rewrite parents_snoc, !map_app, PA. f_equal. cbn [map ct_parent tok own]. rewrite EG, HO. reflexivity.
    + right. left. split; [reflexivity|]. split; [exact I2|]. split; [exact I4|]. split; [exact I5|]. split.
      { rewrite layout_snoc, !map_app, LA, HL. reflexivity. }
      exists done, e, (length (c_toks st)). rewrite HL. auto.
  - assert (EG : ends_group done = true) by (subst done; unfold ends_group; rewrite rev_app_distr; reflexivity).
    rewrite (word_end_eq st2 dsegs s tx tk) by assumption. eexists. split; [reflexivity|].
    unfold st2. cbn [c_toks c_segs c_links c_prec c_isfirst c_ptok c_alt c_palt c_begin c_inside c_isalt c_isend c_useconf c_bufs set_scan].
    destruct (close_group ms d alts (c_segs st) dsegs s (length tx)) as [SG' LA']; [subst done; exact SG|exact Es|exact LA|subst done; exact HP|].
    rewrite <- Ed in SG', LA'.
    constructor; cbn [c_toks c_links c_bufs c_isfirst c_begin c_inside c_isalt c_isend c_segs c_alt c_ptok c_palt c_prec]; auto.
    + rewrite LK, layout_snoc, pairs_of_snoc, HP, HL. cbn [alts_of alts_at length]. unfold grp_pairs. cbn [map concat]. rewrite enter_one, app_nil_r, linked_app. reflexivity.
    + rewrite parents_snoc, !map_app, PA. f_equal. cbn [map ct_parent tok own]. rewrite EG, <- HO, Es, app_length. cbn [length]. rewrite Nat.add_sub. reflexivity.
    + right. left. split; [exact I1|]. split; [reflexivity|]. split; [reflexivity|]. split; [reflexivity|]. split.
      { rewrite layout_snoc, !map_app in *. rewrite LA', HL. reflexivity. }
      exists done, e, (length (c_toks st)). rewrite HL. auto.
Qed.

Lemma mid_end : forall done alts cur st t, mid ms done alts cur st -> tag_line t ALT_END ->
  exists st', words_step ms st t = Ok st' /\ between ms (done ++ [Group (alts ++ [cur])]) st'.
Proof.
  intros done alts cur st t M HTG.
  destruct (tag_step ms st t ALT_END (md_bufs _ _ _ _ _ M) HTG) as (u0 & bs0 & x1 & x2 & x3 & x4 & x5 & Hbs0 & E0).
  rewrite E0, act_end. clear E0. eexists. split; [reflexivity|].
  destruct M as [T _ HC HA F1 F2 F3 F4 F5 LK PA (dsegs & s & tx & tk & S1 & [S2 S2'] & S3 & S4 & S5 & S6 & S7 & S8 & S9 & S10 & S11)].
  pose proof (entries_len ms _ _ _ _ T) as Hlen.
  assert (HE : entries (done ++ [Group (alts ++ [cur])]) = entries done ++ concat alts ++ cur).
  { rewrite entries_app. f_equal. unfold entries. cbn. rewrite app_nil_r, concat_app. cbn. rewrite app_nil_r. reflexivity. }
  constructor; cbn [c_toks c_links c_bufs c_isfirst c_begin c_inside c_isalt c_isend c_segs c_alt c_ptok c_palt c_prec set_flags set_scan]; auto.
  - rewrite HE. exact T.
  - rewrite LK, layout_snoc, pairs_of_snoc. reflexivity.
  - rewrite S1. constructor.
    + apply F2_app; [exact S2|]. constructor; [exact S4|constructor].
    + rewrite layout_snoc, !map_app, S2'. cbn. rewrite S5. reflexivity.
  - rewrite PA, parents_snoc. cbn [own]. rewrite concat_app. cbn [concat]. rewrite app_nil_r. reflexivity.
  - right. right. split; [exact F1|]. split; [reflexivity|]. exists done, (alts ++ [cur]), dsegs, s, tx, tk.
    split; [reflexivity|]. split; [exact S1|]. split; [exact S3|]. split; [exact S7|]. split; [exact S8|]. split; [exact S9|]. split; [exact S10|].
    rewrite layout_snoc, prevs_snoc, S6. cbn [alts_of]. rewrite alts_at_snoc. unfold lasts. rewrite map_app. f_equal. cbn [map].
    assert (Hc : exists k, length cur = S k) by (destruct cur; [congruence|cbn; eauto]). destruct Hc as (k & Hk). rewrite Hk, seq_last.
    rewrite S8, app_length in Hlen. cbn in Hlen. f_equal. lia.
Qed.

(** * Files *)
Lemma mid_words : forall ws es done alts cur st, Forall2 entry_line ws es -> mid ms done alts cur st ->
  exists st', words_loop ms st ws = Ok st' /\ mid ms done alts (cur ++ es) st'.
Proof.
  intros ws es done alts cur st H. revert cur st. induction H as [|w e ws es Hw H IH]; intros cur st M.
  - exists st. rewrite app_nil_r. auto.
  - destruct (mid_inside ms _ _ _ _ _ _ M Hw) as (st1 & E & M1). destruct (IH _ _ M1) as (st2 & E2 & M2).
    exists st2. cbn [words_loop]. rewrite E. cbn [rbind]. rewrite <- app_assoc in M2. auto.
Qed.

Lemma in_order_app : forall l a r, Forall (fun x => x <> []) l -> l <> [] -> in_order ms (Group (l ++ a :: r)) -> in_order ms (Group (l ++ [a])).
Proof.
  intros l a r Hl Hn H. destruct l as [|x l]; [congruence|]. inversion Hl; subst. destruct x as [|e x]; [congruence|]. cbn in *.
  rewrite Forall_forall in *. intros y Hy. apply H. rewrite in_app_iff in *. cbn in *. tauto.
Qed.
Lemma in_order_head : forall l b e r, Forall (fun x => x <> []) l -> l <> [] -> in_order ms (Group (l ++ (e :: b) :: r)) -> in_order ms (Group (l ++ [[e]])).
Proof.
  intros l b e r Hl Hn H. destruct l as [|x l]; [congruence|]. inversion Hl; subst. destruct x as [|e0 x]; [congruence|]. cbn in *.
  rewrite Forall_forall in *. intros y Hy. rewrite in_app_iff in Hy. destruct Hy as [Hy|[<-|[]]].
  - apply H. rewrite in_app_iff. auto.
  - apply (H (e :: b)). rewrite in_app_iff. right. left. reflexivity.
Qed.

Lemma mid_alts : forall rest more done alts cur st t, tag_line t ALT -> alts_lines rest more -> mid ms done alts cur st ->
  Forall (fun a => a <> []) more -> in_order ms (Group (alts ++ cur :: more)) ->
  exists st' al2 cur2, words_loop ms st (t :: rest) = Ok st' /\ mid ms done al2 cur2 st' /\ al2 ++ [cur2] = alts ++ cur :: more.
Proof.
  intros rest more done alts cur st t Ht H. revert alts cur st t Ht.
  assert (STEP : forall ls es alts cur st t more, tag_line t ALT -> Forall2 entry_line ls es -> es <> [] -> mid ms done alts cur st ->
    in_order ms (Group (alts ++ cur :: es :: more)) -> exists st', words_loop ms st (t :: ls) = Ok st' /\ mid ms done (alts ++ [cur]) es st').
  { intros ls es alts cur st t more0 Ht HF Hne M HO. inversion HF as [|w e ws es' Hw HF']; subst; [congruence|].
    destruct (mid_alt ms done alts cur st t w e M Ht Hw) as (st1 & E1 & M1).
    { replace (alts ++ [cur] ++ [[e]]) with ((alts ++ [cur]) ++ [[e]]) by (rewrite <- app_assoc; reflexivity).
      eapply in_order_head with (b := es') (r := more0).
      - apply Forall_app. split; [apply (md_alts _ _ _ _ _ M)|]. constructor; [apply (md_cur _ _ _ _ _ M)|constructor].
      - destruct alts; discriminate.
      - rewrite <- app_assoc. exact HO. }
    destruct (mid_words ws es' done _ _ _ HF' M1) as (st2 & E2 & M2). exists st2. split; [|exact M2].
    change (t :: w :: ws) with ([t; w] ++ ws). rewrite words_loop_app, E1. exact E2. }
  induction H as [ls es HF|ls es t2 rest alts2 HF Ht2 HA IH]; intros alts cur st t Ht M Hne HO.
  - inversion Hne; subst. destruct (STEP ls es alts cur st t [] Ht HF) as (st1 & E1 & M1); auto.
    exists st1, (alts ++ [cur]), es. rewrite <- app_assoc. auto.
  - inversion Hne; subst. destruct (STEP ls es alts cur st t alts2 Ht HF) as (st1 & E1 & M1); auto.
    destruct (IH (alts ++ [cur]) es st1 t2 Ht2 M1) as (st2 & al2 & cur2 & E2 & M2 & EE); [assumption|rewrite <- app_assoc; exact HO|].
    exists st2, al2, cur2. rewrite app_comm_cons, words_loop_app, E1. split; [exact E2|]. split; [exact M2|].
    rewrite EE, <- app_assoc. reflexivity.
Qed.

Lemma between_group : forall done st b ls e alts, between ms done st -> tag_line b ALT_BEGIN -> alts_lines ls alts -> tag_line e ALT_END ->
  ok_item (Group alts) -> in_order ms (Group alts) ->
  exists st', words_loop ms st (b :: ls ++ [e]) = Ok st' /\ between ms (done ++ [Group alts]) st'.
Proof.
  intros done st b ls e alts B Hb Ha He Hok HO. cbn in Hok.
  assert (FIRST : forall ls es, Forall2 entry_line ls es -> es <> [] -> exists st', words_loop ms st (b :: ls) = Ok st' /\ mid ms done [] es st').
  { intros ls0 es HF Hne. inversion HF as [|w x ws es' Hw HF']; subst; [congruence|].
    destruct (between_begin done st b w x B Hb Hw) as (st1 & E1 & M1). destruct (mid_words ws es' done _ _ _ HF' M1) as (st2 & E2 & M2).
    exists st2. split; [|exact M2]. change (b :: w :: ws) with ([b; w] ++ ws). rewrite words_loop_app, E1. exact E2. }
  assert (exists st1 al cur, words_loop ms st (b :: ls) = Ok st1 /\ mid ms done al cur st1 /\ al ++ [cur] = alts) as (st1 & al & cur & E1 & M1 & EE).
  { inversion Ha as [l es HF|l es t rest al HF Ht Hr]; subst.
    - inversion Hok; subst. destruct (FIRST ls es HF) as (st1 & E1 & M1); [assumption|]. exists st1, [], es. auto.
    - inversion Hok; subst. destruct (FIRST l es HF) as (st1 & E1 & M1); [assumption|].
      destruct (mid_alts rest al done [] es st1 t Ht Hr M1) as (st2 & al2 & cur2 & E2 & M2 & EE); [assumption|exact HO|].
      exists st2, al2, cur2. rewrite app_comm_cons, words_loop_app, E1. auto. }
  destruct (mid_end done al cur st1 e M1 He) as (st2 & E2 & B2). rewrite EE in B2. exists st2. split; [|exact B2].
  rewrite app_comm_cons, words_loop_app, E1. cbn [rbind words_loop]. rewrite E2. reflexivity.
Qed.

Lemma between_all : forall lines its, written lines its -> forall done st, between ms done st -> Forall ok_item its -> Forall (in_order ms) its ->
  exists st', words_loop ms st lines = Ok st' /\ between ms (done ++ its) st'.
Proof.
  intros lines its H. induction H as [|l e ls its He H IH|b ls e alts rest its Hb Ha He H IH]; intros done st B Hok HO.
  - exists st. rewrite app_nil_r. auto.
  - inversion Hok; inversion HO; subst. destruct (between_word done st l e B He) as (st1 & E1 & B1).
    destruct (IH _ _ B1) as (st2 & E2 & B2); auto. exists st2. cbn [words_loop]. rewrite E1, <- app_assoc in *. auto.
  - inversion Hok; inversion HO; subst. destruct (between_group done st b ls e alts B Hb Ha He) as (st1 & E1 & B1); auto.
    destruct (IH _ _ B1) as (st2 & E2 & B2); auto. exists st2. rewrite <- app_assoc in B2. split; [|exact B2].
    replace (b :: ls ++ e :: rest) with ((b :: ls ++ [e]) ++ rest) by (cbn; rewrite <- app_assoc; reflexivity).
    rewrite words_loop_app, E1. exact E2.
Qed.

Lemma start_between : between ms [] start_state.
Proof.
  constructor; try reflexivity.
  - constructor.
  - constructor; [constructor|reflexivity].
  - left. repeat split.
Qed.
End Run.
