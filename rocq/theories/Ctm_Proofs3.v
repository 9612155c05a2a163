(** The reader, item by item. *)
From Coq Require Import String List ZArith NArith Arith Bool Lia.
From Verif Require Import Base Store_Model Graph_Model Links_Model Links_Spec Ctm_Model Ctm_Spec Ctm_Proofs1 Ctm_Proofs2.
Import ListNotations.
Local Open Scope res_scope.

Lemma F2_app : forall A B (P : A -> B -> Prop) l1 l2 m1 m2, Forall2 P l1 m1 -> Forall2 P l2 m2 -> Forall2 P (l1 ++ l2) (m1 ++ m2).
Proof. intros. apply Forall2_app; assumption. Qed.
Lemma F2_length : forall A B (P : A -> B -> Prop) l m, Forall2 P l m -> length l = length m.
Proof. intros A B P l m H. induction H; cbn; auto. Qed.
Lemma last_ne : forall (l : list nat) d, l <> [] -> exists x, l = removelast l ++ [x] /\ last l d = x.
Proof. intros l d H. exists (last l d). split; [apply app_removelast_last; exact H|reflexivity]. Qed.

Section Run.
Variable ms : str -> Z.

Lemma segment_more : forall alts cur s e s2, cur <> [] -> segment_of ms (Group (alts ++ [cur])) s ->
  cs_src s2 = cs_src s -> cs_chan s2 = cs_chan s -> cs_start s2 = cs_start s ->
  cs_end s2 = Z.max (cs_end s) (ms (e_begin e) + ms (e_dur e)) ->
  segment_of ms (Group (alts ++ [cur ++ [e]])) s2.
Proof.
  intros alts cur s e s2 Hne (H1 & H2 & H3) E1 E2 E3 E4. unfold segment_of. cbn [alts_of] in *.
  rewrite concat_app in *. cbn [concat] in *. rewrite app_nil_r in *. rewrite E1, E2, E3, E4. split; [|split].
  - intros x r al E. destruct alts as [|a alts].
    + injection E as E <-. destruct cur as [|c cur]; [congruence|]. injection E as <- <-. eapply H1. reflexivity.
    + injection E as -> <-. eapply H1. reflexivity.
  - intros x Hx. rewrite !in_app_iff in Hx. destruct Hx as [Hx|[Hx|[<-|[]]]].
    + assert (ms (e_begin x) + ms (e_dur x) <= cs_end s)%Z by (apply H2; apply in_app_iff; auto). lia.
    + assert (ms (e_begin x) + ms (e_dur x) <= cs_end s)%Z by (apply H2; apply in_app_iff; auto). lia.
    + lia.
  - destruct H3 as (x & Hx & Ex). destruct (Z.max_spec (cs_end s) (ms (e_begin e) + ms (e_dur e))) as [[_ ->]|[_ ->]].
    + exists e. rewrite !in_app_iff. split; [right; right; left; reflexivity|reflexivity].
    + exists x. rewrite in_app_iff in Hx. rewrite !in_app_iff. split; [tauto|exact Ex].
Qed.
Lemma segment_next : forall alts cur s e s2, cur <> [] -> segment_of ms (Group (alts ++ [cur])) s ->
  cs_src s2 = cs_src s -> cs_chan s2 = cs_chan s -> cs_start s2 = cs_start s ->
  cs_end s2 = Z.max (cs_end s) (ms (e_begin e) + ms (e_dur e)) ->
  segment_of ms (Group ((alts ++ [cur]) ++ [[e]])) s2.
Proof.
  intros alts cur s e s2 Hne (H1 & H2 & H3) E1 E2 E3 E4. unfold segment_of. cbn [alts_of] in *.
  rewrite concat_app. cbn [concat]. rewrite app_nil_r. rewrite E1, E2, E3, E4. split; [|split].
  - intros x r al E. destruct (alts ++ [cur]) as [|a l] eqn:Ea; [destruct alts; discriminate|].
    injection E as -> <-. eapply H1. reflexivity.
  - intros x Hx. rewrite in_app_iff in Hx. destruct Hx as [Hx|[<-|[]]].
    + specialize (H2 x Hx). lia.
    + lia.
  - destruct H3 as (x & Hx & Ex). destruct (Z.max_spec (cs_end s) (ms (e_begin e) + ms (e_dur e))) as [[_ ->]|[_ ->]].
    + exists e. rewrite in_app_iff. split; [right; left; reflexivity|reflexivity].
    + exists x. rewrite in_app_iff. split; [left; exact Hx|exact Ex].
Qed.

(** Segments with more tokens or a later end. *)
Definition seg_upd (s : cseg) (e : Z) (f l : list nat) : cseg :=
  {| cs_src := cs_src s; cs_chan := cs_chan s; cs_start := cs_start s; cs_end := e; cs_first := f; cs_last := l |}.
Lemma extend_eq : forall st dsegs s e, c_segs st = dsegs ++ [s] ->
  extend st (Some (length dsegs)) e = Ok (set_segs st (dsegs ++ [seg_upd s (Z.max (cs_end s) e) (cs_first s) (cs_last s)])).
Proof.
  intros st dsegs s e E. unfold extend. rewrite E, deref_mid. cbn [rbind]. unfold store_seg. rewrite E, put_mid.
  destruct (Z.ltb_spec (cs_end s) e).
  - rewrite Z.max_r by lia. reflexivity.
  - rewrite Z.max_l by lia. destruct st, s; cbn in *. subst. reflexivity.
Qed.
Lemma add_first_eq : forall st dsegs s r tx tk tr, c_segs st = dsegs ++ s :: r -> c_toks st = tx ++ tk :: tr ->
  (cs_start s <= ct_start tk)%Z ->
  add_first st (Some (length dsegs)) (Some (length tx)) =
    Ok (set_segs st (dsegs ++ seg_upd s (cs_end s) (cs_first s ++ [length tx]) (cs_last s) :: r)).
Proof.
  intros st dsegs s r tx tk tr E1 E2 Hle. unfold add_first. rewrite E1, E2, !deref_mid. cbn [rbind].
  assert (L : (ct_start tk <? cs_start s)%Z = false) by (apply Z.ltb_ge; exact Hle). rewrite L, andb_false_r. unfold store_seg. rewrite E1, put_mid. reflexivity.
Qed.
Lemma add_last_eq : forall st dsegs s r tx tk tr, c_segs st = dsegs ++ s :: r -> c_toks st = tx ++ tk :: tr ->
  (ct_end tk <= cs_end s)%Z ->
  add_last st (Some (length dsegs)) (Some (length tx)) =
    Ok (set_segs st (dsegs ++ seg_upd s (cs_end s) (cs_first s) (cs_last s ++ [length tx]) :: r)).
Proof.
  intros st dsegs s r tx tk tr E1 E2 Hle. unfold add_last. rewrite E1, E2, !deref_mid. cbn [rbind].
  assert (L : (cs_end s <? ct_end tk)%Z = false) by (apply Z.ltb_ge; exact Hle). rewrite L, andb_false_r. unfold store_seg. rewrite E1, put_mid. reflexivity.
Qed.

Lemma entries_len : forall done alts cur toks, Forall2 (token_of ms) (entries done ++ concat alts ++ cur) toks ->
  length toks = length (entries done) + length (concat alts) + length cur.
Proof. intros. apply F2_length in H. rewrite <- H, !app_length. lia. Qed.

Lemma owner_len : forall done dsegs, segs_ok ms done dsegs -> length dsegs = length done.
Proof. intros done dsegs [H _]. symmetry. eapply F2_length. exact H. Qed.
Lemma mid_inside : forall done alts cur st ws e, mid ms done alts cur st -> entry_line ws e ->
  exists st', words_step ms st ws = Ok st' /\ mid ms done alts (cur ++ [e]) st'.
Proof.
  intros done alts cur st ws e M HE. destruct (entry_step ms st ws e (md_bufs _ _ _ _ _ M) HE) as (u & bs & Hbs & E).
  rewrite E. clear E. destruct HE as (_ & HT & _). rewrite act_word by exact HT.
  destruct M as [T _ HC HA F1 F2 F3 F4 F5 LK PA (dsegs & s & tx & tk & S1 & S2 & S3 & S4 & S5 & S6 & S7 & S8 & S9 & S10 & S11)].
  pose proof (entries_len _ _ _ _ T) as Hlen.
  destruct st as [toks segs h prec isf ptok al pal bg ins isa ise us bf]; cbn in *. subst bg isa ins.
  unfold word_inside, new_tok. cbn -[extend]. subst al ptok. erewrite extend_eq by (cbn; exact S1). cbn.
  eexists. split; [reflexivity|]. subst toks. rewrite app_length in Hlen. cbn in Hlen.
  assert (Hc : exists k, length cur = S k) by (destruct cur; [congruence|cbn; eauto]). destruct Hc as (k & Hk).
  constructor; cbn; auto.
  - rewrite !app_assoc. apply F2_app; [rewrite <- app_assoc; exact T|]. constructor; [|constructor]. repeat split.
  - destruct cur; discriminate.
  - subst h. rewrite !alts_at_snoc, !grp_pairs_snoc, !app_length. cbn [length]. rewrite Hk. replace (S k + 1) with (S (S k)) by lia. rewrite enter_seq.
    rewrite !app_assoc, linked_snoc. f_equal; lia.
  - rewrite (map_app _ (tx ++ [tk])), PA, (owner_len done dsegs S2). cbn [map ct_parent]. rewrite app_assoc, (app_length (_ ++ _)). cbn [length].
    rewrite repeat_app, app_assoc, (map_app _ (parents done ++ _)). reflexivity.
  - eexists dsegs, _, _, _. split; [reflexivity|]. split; [exact S2|]. split; [exact S3|].
    split; [eapply segment_more; [exact HC|exact S4|reflexivity..]|].
    split. { cbn. rewrite S5. rewrite !alts_at_snoc. unfold heads. rewrite !map_app. f_equal. rewrite !app_length. cbn [length]. rewrite Hk. reflexivity. }
    split; [exact S6|]. split; [reflexivity|]. split; [reflexivity|]. split; [reflexivity|]. split; [cbn; lia|]. exact S11.
Qed.

Lemma enter_links : forall done dsegs r st t, from_here done dsegs st -> c_segs st = dsegs ++ r ->
  (match c_palt st with
   | None => match c_prec st with Some _ => link_from st (c_prec st) t | None => Ok st end
   | Some _ => link_lasts st (c_palt st) t
   end) = Ok (set_links st (fold_left linkp (map (fun p => (p, t)) (prevs [] (layout done))) (c_links st))).
Proof.
  intros done dsegs r st t H E. unfold from_here in H. destruct (c_palt st) as [i|].
  - destruct H as (sg & Hn & Hl). unfold link_lasts, deref. rewrite E, nth_error_app1, Hn by (apply nth_error_Some; congruence).
    cbn [rbind]. rewrite link_fold, Hl. reflexivity.
  - destruct (c_prec st) as [p|]; rewrite H; cbn; [reflexivity|]. destruct st; reflexivity.
Qed.

Definition tok (text : str) (b d : Z) (conf : option str) (p : option nat) : ctok :=
  {| ct_text := text; ct_start := b; ct_end := b + d; ct_conf := conf; ct_parent := p |}.
Lemma word_alt_eq : forall st done dsegs s tx tk text b d conf, c_segs st = dsegs ++ [s] -> c_toks st = tx ++ [tk] ->
  c_alt st = Some (length dsegs) -> c_ptok st = Some (length tx) -> (ct_end tk <= cs_end s)%Z -> (cs_start s <= b)%Z ->
  from_here done dsegs st ->
  word_alt st text b d conf = Ok (mkC (c_toks st ++ [tok text b d conf (c_alt st)])
    (dsegs ++ [seg_upd s (Z.max (cs_end s) (b + d)) (cs_first s ++ [length (c_toks st)]) (cs_last s ++ [length tx])])
    (fold_left linkp (map (fun p => (p, length (c_toks st))) (prevs [] (layout done))) (c_links st))
    (c_prec st) (c_isfirst st) (Some (length (c_toks st))) (c_alt st) (c_palt st) (c_begin st) (c_inside st) false (c_isend st) (c_useconf st) (c_bufs st)).
Proof.
  intros st done dsegs s tx tk text b d conf E1 E2 E3 E4 H1 H2 HF. unfold word_alt, new_tok.
  set (st1 := set_toks st _). change (c_alt st1) with (c_alt st). rewrite E3.
  rewrite (extend_eq st1 dsegs s (b + d) E1). cbn [rbind].
  set (s1 := seg_upd s (Z.max (cs_end s) (b + d)) (cs_first s) (cs_last s)). set (st2 := set_segs st1 _).
  change (c_alt st2) with (c_alt st). rewrite E3.
  rewrite (add_first_eq st2 dsegs s1 [] (c_toks st) (tok text b d conf (c_alt st)) []); [|reflexivity|unfold st2, st1, tok; rewrite E3; reflexivity|exact H2].
  cbn [rbind]. set (st3 := set_segs st2 _).
  rewrite (enter_links done dsegs _ st3 _ HF eq_refl). cbn [rbind]. set (st4 := set_links st3 _).
  change (c_alt st4) with (c_alt st). change (c_ptok st4) with (c_ptok st). rewrite E3, E4.
  rewrite (add_last_eq st4 dsegs _ [] tx tk [tok text b d conf (c_alt st)] eq_refl).
  - cbn [rbind]. rewrite <- E3. reflexivity.
  - unfold st4, st3, st2, st1. cbn [c_toks set_links set_segs set_toks]. rewrite E2, <- app_assoc, E3. reflexivity.
  - cbn. lia.
Qed.

Lemma mid_alt : forall done alts cur st t ws e, mid ms done alts cur st -> tag_line t ALT -> entry_line ws e ->
  in_order ms (Group (alts ++ [cur] ++ [[e]])) ->
  exists st', words_loop ms st [t; ws] = Ok st' /\ mid ms done (alts ++ [cur]) [e] st'.
Proof.
  intros done alts cur st t ws e M HTG HE HO. cbn [words_loop].
  destruct (tag_step ms st t ALT (md_bufs _ _ _ _ _ M) HTG) as (u0 & bs0 & x1 & x2 & x3 & x4 & x5 & Hbs0 & E0).
  rewrite E0, act_alt. clear E0. cbn [rbind].
  set (st1 := set_flags _ _ _ _ _).
  assert (Hb1 : length (c_bufs st1) = 6) by exact Hbs0.
  destruct (entry_step ms st1 ws e Hb1 HE) as (u & bs & Hbs & E). rewrite E. clear E.
  destruct HE as (_ & HT & _). rewrite act_word by exact HT.
  destruct M as [T _ HC HA F1 F2 F3 F4 F5 LK PA (dsegs & s & tx & tk & S1 & S2 & S3 & S4 & S5 & S6 & S7 & S8 & S9 & S10 & S11)].
  pose proof (entries_len _ _ _ _ T) as Hlen.
  assert (Hstart : (cs_start s <= ms (e_begin e))%Z).
  { destruct S4 as (H1 & _). cbn [alts_of] in H1. destruct alts as [|a0 alts].
    - destruct cur as [|c cur]; [congruence|]. destruct (H1 c cur [] eq_refl) as (_ & _ & ->).
      cbn in HO. inversion HO; subst. assumption.
    - inversion HA; subst. destruct a0 as [|c a0]; [congruence|].
      destruct (H1 c a0 _ eq_refl) as (_ & _ & ->). cbn in HO. rewrite Forall_forall in HO. apply (HO [e]).
      rewrite !in_app_iff. right. right. left. reflexivity. }
  set (st2 := set_scan st1 u bs). change (c_begin st2) with (c_begin st). rewrite F2. change (c_isalt st2) with true. cbv iota.
  rewrite (word_alt_eq st2 done dsegs s tx tk (e_text e) (ms (e_begin e)) (ms (e_dur e)) (e_conf e) S1 S8 S7 S9 S10 Hstart S11).
  cbn [rbind]. eexists. split; [reflexivity|].
  change (c_toks st2) with (c_toks st). change (c_links st2) with (c_links st). change (c_isfirst st2) with (c_isfirst st).
  change (c_begin st2) with (c_begin st). change (c_inside st2) with (c_inside st). change (c_isend st2) with (c_isend st).
  change (c_palt st2) with (c_palt st). change (c_prec st2) with (c_prec st). change (c_alt st2) with (c_alt st).
  change (c_useconf st2) with u. change (c_bufs st2) with bs. clear st2 st1 Hb1.
  rewrite S8 in *. rewrite app_length in *. cbn [length] in *.
  assert (Hc : exists k, length cur = S k) by (destruct cur; [congruence|cbn; eauto]). destruct Hc as (k & Hk).
  constructor; cbn [c_toks c_links c_bufs c_isfirst c_begin c_inside c_isalt c_isend c_segs c_alt c_ptok]; auto; try discriminate.
  - rewrite concat_app. cbn [concat]. rewrite app_nil_r, !app_assoc. apply F2_app; [rewrite <- app_assoc; exact T|].
    constructor; [|constructor]. repeat split.
  - apply Forall_app. auto.
  - rewrite LK. rewrite (alts_at_snoc _ (alts ++ [cur])), grp_pairs_snoc. cbn [length]. rewrite enter_one, app_assoc, (linked_app (_ ++ _) (map _ _)). f_equal.
    apply map_ext. intros p. f_equal. rewrite concat_app. cbn [concat]. rewrite app_nil_r, app_length. lia.
  - rewrite (map_app _ (tx ++ [tk])), PA, S7, (owner_len done dsegs S2). cbn [map ct_parent tok]. rewrite concat_app. cbn [concat]. 
    rewrite ?app_nil_r, ?app_length, ?repeat_app, ?map_app, ?app_assoc. reflexivity.
  - eexists dsegs, _, _, _. split; [reflexivity|]. split; [exact S2|]. split; [exact S3|].
    split; [eapply segment_next; [exact HC|exact S4|reflexivity..]|].
    split. { cbn [cs_first seg_upd]. rewrite S5. rewrite (alts_at_snoc _ (alts ++ [cur])). unfold heads. rewrite map_app. f_equal. cbn [map length seq hd]. f_equal.
             rewrite concat_app. cbn [concat]. rewrite app_nil_r, app_length. lia. }
    split. { cbn [cs_last seg_upd]. rewrite S6, alts_at_snoc. unfold lasts. rewrite map_app. f_equal. cbn [map]. rewrite Hk, seq_last. f_equal. lia. }
    split; [exact S7|]. split; [reflexivity|]. split; [rewrite app_length; reflexivity|]. split; [cbn; lia|]. exact S11.
Qed.

Lemma segment_one : forall i e s, alts_of i = [[e]] -> cs_src s = e_src e -> cs_chan s = e_chan e -> cs_start s = ms (e_begin e) ->
  cs_end s = (ms (e_begin e) + ms (e_dur e))%Z -> segment_of ms i s.
Proof.
  intros i e s E E1 E2 E3 E4. unfold segment_of. rewrite E, E1, E2, E3, E4. split; [|split].
  - intros x r al H. injection H as <- <- <-. auto.
  - intros x [<-|[]]. lia.
  - exists e. split; [left; reflexivity|reflexivity].
Qed.
Lemma segs_ok_same : forall done l s s', segs_ok ms done (l ++ [s]) -> cs_src s' = cs_src s -> cs_chan s' = cs_chan s ->
  cs_start s' = cs_start s -> cs_end s' = cs_end s -> cs_first s' = cs_first s -> segs_ok ms done (l ++ [s']).
Proof.
  intros done l s s' [H1 H2] E1 E2 E3 E4 E5. constructor.
  - apply Forall2_app_inv_r in H1. destruct H1 as (d1 & d2 & F1 & F2 & ->). apply Forall2_app; [exact F1|].
    inversion F2 as [|i sg x y Hs Hn]; subst. inversion Hn; subst. constructor; [|constructor].
    unfold segment_of in *. rewrite E1, E2, E3, E4. exact Hs.
  - rewrite map_app in *. cbn in *. rewrite E5. exact H2.
Qed.
Lemma prevs_snoc : forall L A, prevs [] (L ++ [A]) = lasts A.
Proof. intros. unfold prevs. destruct (L ++ [A]) eqn:E; [destruct L; discriminate|]. rewrite <- E, last_last. reflexivity. Qed.
Lemma last_map : forall l (A : list (list nat)) (segs : list cseg), map cs_last segs = map lasts l -> forall s d, segs = d ++ [s] ->
  cs_last s = prevs [] l.
Proof.
  intros l A segs E s d ->. rewrite map_app in E. cbn in E. destruct l as [|x l] using rev_ind.
  - destruct (map cs_last d); discriminate.
  - rewrite prevs_snoc. rewrite map_app in E. cbn in E. apply app_inj_tail in E. tauto.
Qed.

(** The segment of the group just ended gets its last token. *)
Lemma close_group : forall d alts segs dsegs s n, segs_ok ms (d ++ [Group alts]) segs -> segs = dsegs ++ [s] ->
  map cs_last dsegs = map lasts (layout d) -> cs_last s ++ [n] = prevs [] (layout (d ++ [Group alts])) ->
  let segs' := dsegs ++ [seg_upd s (cs_end s) (cs_first s) (cs_last s ++ [n])] in
  segs_ok ms (d ++ [Group alts]) segs' /\ map cs_last segs' = map lasts (layout (d ++ [Group alts])).
Proof.
  intros d alts segs dsegs s n H -> E1 E2. cbv zeta. split.
  - eapply segs_ok_same; [exact H|reflexivity..].
  - rewrite map_app. cbn. rewrite E1, E2, layout_snoc, prevs_snoc, map_app. reflexivity.
Qed.
Lemma len_entries : forall done st, between ms done st -> length (c_toks st) = length (entries done).
Proof. intros done st B. symmetry. eapply F2_length. apply (bt_toks _ _ _ B). Qed.

End Run.
