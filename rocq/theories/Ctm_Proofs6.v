(** What the paths spell, and every word kept. *)
From Coq Require Import String List ZArith NArith Arith Bool Lia.
From Verif Require Import Base Store_Model Graph_Model Links_Model Links_Spec Ctm_Model Ctm_Spec Ctm_Proofs1 Ctm_Proofs2 Ctm_Proofs3 Ctm_Proofs4 Ctm_Proofs5.
Import ListNotations.
Local Open Scope res_scope.

(** * Texts along the numbers *)
Definition texts (E : list entry) (p : list nat) : list (option str) := map (fun t => option_map e_text (nth_error E t)) p.
Lemma texts_seq : forall X a Y, texts (X ++ a ++ Y) (seq (length X) (length a)) = map Some (map e_text a).
Proof.
  intros X a. revert X. induction a as [|e a IH]; intros X Y; [reflexivity|]. cbn [length seq]. unfold texts in *. cbn [map].
  rewrite nth_error_app2, Nat.sub_diag by lia. cbn [nth_error app option_map]. f_equal.
  specialize (IH (X ++ [e]) Y). rewrite app_length in IH. cbn [length] in IH. rewrite Nat.add_1_r, <- app_assoc in IH. exact IH.
Qed.
Lemma in_alts_at : forall (alts : list (list entry)) n p, In p (alts_at n alts) <->
  exists l1 a l2, alts = l1 ++ a :: l2 /\ p = seq (n + length (concat l1)) (length a).
Proof.
  induction alts as [|b alts IH]; intros n p; cbn [alts_at In].
  - split; [intros []|]. intros (l1 & a & l2 & E & _). destruct l1; discriminate.
  - rewrite IH. split.
    + intros [<-|(l1 & a & l2 & -> & ->)].
      * exists [], b, alts. rewrite Nat.add_0_r. auto.
      * exists (b :: l1), a, l2. cbn [concat app]. rewrite app_length, Nat.add_assoc. auto.
    + intros (l1 & a & l2 & E & ->). destruct l1 as [|c l1].
      * injection E as -> ->. left. rewrite Nat.add_0_r. reflexivity.
      * injection E as -> E. right. exists l1, a, l2. cbn [concat]. rewrite app_length, Nat.add_assoc. auto.
Qed.
Lemma alt_texts : forall X alts Y n p, n = length X -> In p (alts_at n alts) ->
  exists a, In a alts /\ texts (X ++ concat alts ++ Y) p = map Some (map e_text a).
Proof.
  intros X alts Y n p -> H. apply in_alts_at in H. destruct H as (l1 & a & l2 & -> & ->). exists a. split; [apply in_app_iff; right; left; reflexivity|].
  rewrite concat_app. cbn [concat]. rewrite <- app_length, <- !app_assoc, app_assoc. apply texts_seq.
Qed.
Lemma texts_alt : forall X alts Y n a, n = length X -> In a alts ->
  exists p, In p (alts_at n alts) /\ texts (X ++ concat alts ++ Y) p = map Some (map e_text a).
Proof.
  intros X alts Y n a -> H. apply in_split in H. destruct H as (l1 & l2 & ->). eexists. split; [apply in_alts_at; exists l1, a, l2; split; reflexivity|].
  rewrite concat_app. cbn [concat]. rewrite <- app_length, <- !app_assoc, app_assoc. apply texts_seq.
Qed.
Lemma texts_app : forall E p q, texts E (p ++ q) = texts E p ++ texts E q.
Proof. intros. unfold texts. apply map_app. Qed.

(** [more] are words that follow those of the items. *)
Lemma picks_say : forall its X more n picks, n = length X -> Forall2 (fun p A => In p A) picks (count_items n its) ->
  exists ws, says its ws /\ texts (X ++ entries its ++ more) (concat picks) = map Some ws.
Proof.
  induction its as [|i its IH]; intros X more n picks Hn HF.
  - inversion HF; subst. exists []. split; [constructor|reflexivity].
  - rewrite count_items_cons in HF. inversion HF as [|p A picks' L Hp HF']; subst.
    destruct (alt_texts X (alts_of i) (entries its ++ more) (length X) p eq_refl Hp) as (a & Ha & Ea).
    destruct (IH (X ++ concat (alts_of i)) more (length X + length (concat (alts_of i))) picks') as (ws & Hw & Ew); [rewrite app_length; reflexivity|exact HF'|].
    exists (map e_text a ++ ws). split; [constructor; assumption|]. rewrite entries_cons. cbn [concat]. rewrite texts_app, map_app, <- !app_assoc in *.
    rewrite Ea, Ew. reflexivity.
Qed.
Lemma say_picks : forall its ws X more n, says its ws -> n = length X ->
  exists picks, Forall2 (fun p A => In p A) picks (count_items n its) /\ texts (X ++ entries its ++ more) (concat picks) = map Some ws.
Proof.
  intros its ws X more n H. revert X n. induction H as [|i its a ws Ha H IH]; intros X n Hn.
  - exists []. split; [constructor|reflexivity].
  - rewrite count_items_cons. destruct (texts_alt X (alts_of i) (entries its ++ more) n a Hn Ha) as (p & Hp & Ep).
    destruct (IH (X ++ concat (alts_of i)) (n + length (concat (alts_of i)))) as (picks & HF & EP); [rewrite app_length, Hn; reflexivity|].
    exists (p :: picks). split; [constructor; assumption|]. rewrite entries_cons. cbn [concat]. rewrite texts_app, map_app, <- !app_assoc in *.
    rewrite Ep, EP. reflexivity.
Qed.

Lemma some_inj : forall (a b : list str), map Some a = map Some b -> a = b.
Proof. induction a as [|x a IH]; intros [|y b] H; try discriminate; [reflexivity|]. injection H as -> H. f_equal. auto. Qed.

Lemma tok_texts : forall ms E T, Forall2 (token_of ms) E T -> forall p,
  map (fun t => option_map ct_text (nth_error T t)) p = texts E p.
Proof.
  intros ms E T H p. unfold texts. apply map_ext. intros t. revert t. induction H as [|e k E T Hk H IH]; intros [|t]; cbn; auto.
  destruct Hk as (-> & _). reflexivity.
Qed.

Lemma layout_ne : forall its, Forall ok_item its -> Forall (Forall (fun a => a <> [])) (layout its).
Proof.
  intros its H. unfold layout. generalize 0. induction H as [|i its Hi H IH]; intros n; [constructor|]. rewrite count_items_cons. constructor; [|apply IH].
  apply Forall_forall. intros p Hp. apply in_alts_at in Hp. destruct Hp as (l1 & a & l2 & E & ->).
  assert (a <> []).
  { destruct i as [e|alts]; cbn in E, Hi.
    - destruct l1 as [|? [|? ?]]; injection E as E; subst; discriminate.
    - rewrite Forall_forall in Hi. apply Hi. rewrite E. apply in_app_iff. right. left. reflexivity. }
  destruct a; [congruence|discriminate].
Qed.
Lemma layout_length : forall its n, length (count_items n its) = length its.
Proof. induction its as [|i its IH]; intros n; [reflexivity|]. rewrite count_items_cons. cbn. auto. Qed.

(** * Every word is kept *)
Section Keep.
Variable ms : str -> Z.
Lemma add_first_toks : forall st p t st', add_first st p t = Ok st' -> c_toks st' = c_toks st.
Proof.
  intros st p t st' H. unfold add_first in H. destruct (deref (c_segs st) p); try discriminate. cbn [rbind] in H.
  destruct (deref (c_toks st) t); try discriminate. cbn [rbind] in H. destruct (_ && _)%bool; [discriminate|].
  destruct t; [|discriminate]. injection H as <-. destruct p; reflexivity.
Qed.
Lemma add_last_toks : forall st p t st', add_last st p t = Ok st' -> c_toks st' = c_toks st.
Proof.
  intros st p t st' H. unfold add_last in H. destruct (deref (c_segs st) p); try discriminate. cbn [rbind] in H.
  destruct (deref (c_toks st) t); try discriminate. cbn [rbind] in H. destruct (_ && _)%bool; [discriminate|].
  destruct t; [|discriminate]. injection H as <-. destruct p; reflexivity.
Qed.
Lemma extend_toks : forall st p e st', extend st p e = Ok st' -> c_toks st' = c_toks st.
Proof.
  intros st p e st' H. unfold extend in H. destruct (deref (c_segs st) p); try discriminate. cbn [rbind] in H. injection H as <-.
  destruct (_ <? _)%Z; [destruct p|]; reflexivity.
Qed.
Lemma link_from_toks : forall st p t st', link_from st p t = Ok st' -> c_toks st' = c_toks st.
Proof. intros st p t st' H. unfold link_from in H. destruct p; [|discriminate]. injection H as <-. reflexivity. Qed.
Lemma link_lasts_toks : forall st p t st', link_lasts st p t = Ok st' -> c_toks st' = c_toks st.
Proof. intros st p t st' H. unfold link_lasts in H. destruct (deref (c_segs st) p); try discriminate. cbn [rbind] in H. injection H as <-. reflexivity. Qed.

Ltac run H := repeat match type of H with
  | rbind ?x _ = Ok _ => let E := fresh "E" in destruct x eqn:E; cbn [rbind] in H; try discriminate H
  end.
Ltac toks := repeat match goal with
  | H : add_first _ _ _ = Ok _ |- _ => apply add_first_toks in H
  | H : add_last _ _ _ = Ok _ |- _ => apply add_last_toks in H
  | H : extend _ _ _ = Ok _ |- _ => apply extend_toks in H
  | H : link_from _ _ _ = Ok _ |- _ => apply link_from_toks in H
  | H : link_lasts _ _ _ = Ok _ |- _ => apply link_lasts_toks in H
  end.
Lemma act_texts : forall st src chan text b d conf st', act st src chan text b d conf = Ok st' ->
  map ct_text (c_toks st') = map ct_text (c_toks st) ++
    (if str_eqb text ALT_BEGIN || str_eqb text ALT_END || str_eqb text ALT then [] else [text]).
Proof.
  intros st src chan text b d conf st' H. unfold act in H.
  destruct (str_eqb text ALT_BEGIN). { injection H as <-. cbn. rewrite app_nil_r. reflexivity. }
  destruct (str_eqb text ALT_END). { injection H as <-. cbn. rewrite app_nil_r. reflexivity. }
  destruct (str_eqb text ALT). { injection H as <-. cbn. rewrite app_nil_r. reflexivity. }
  cbn [orb]. destruct (c_begin st); [|destruct (c_isalt st); [|destruct (c_inside st); [|destruct (c_isend st)]]].
  - unfold word_begin, new_seg, new_tok in H. set (s1 := set_toks _ _) in H.
    assert (T : c_toks s1 = c_toks st ++ [tok text b d conf (Some (length (c_segs st)))]) by reflexivity. clearbody s1.
    destruct (c_isfirst s1).
    + cbn [rbind] in H. run H. injection H as <-. toks. cbn [c_toks set_flags set_alts set_ptok set_isfirst]. rewrite E, T, map_app. reflexivity.
    + destruct (c_isend s1).
      * run H. injection H as <-. unfold rbind in E. destruct (add_last _ _ _) eqn:E1; try discriminate. destruct (link_lasts _ _ _) eqn:E2; try discriminate.
        injection E as <-. toks. cbn [c_toks set_flags set_alts set_ptok set_isfirst] in *. rewrite E0, E2, E1, T, map_app. reflexivity.
      * run H. injection H as <-. toks. cbn [c_toks set_flags set_alts set_ptok set_isfirst]. rewrite E0, E, T, map_app. reflexivity.
  - unfold word_alt, new_tok in H. set (s1 := set_toks _ _) in H.
    assert (T : c_toks s1 = c_toks st ++ [tok text b d conf (c_alt st)]) by reflexivity. clearbody s1.
    run H. injection H as <-. assert (T2 : c_toks a1 = c_toks a0).
    { destruct (c_palt a0); [|destruct (c_prec a0); [|injection E1 as <-; reflexivity]]; toks; assumption. }
    toks. cbn [c_toks set_flags set_ptok]. rewrite E2, T2, E0, E, T, map_app. reflexivity.
  - unfold word_inside, new_tok in H. set (s1 := set_toks _ _) in H.
    assert (T : c_toks s1 = c_toks st ++ [tok text b d conf (c_alt st)]) by reflexivity. clearbody s1.
    run H. injection H as <-. toks. cbn [c_toks set_ptok]. rewrite E0, E, T, map_app. reflexivity.
  - unfold word_end, new_seg, new_tok in H. set (s1 := set_toks _ _) in H.
    assert (T : c_toks s1 = c_toks st ++ [tok text b d conf (c_alt st)]) by reflexivity. clearbody s1.
    run H. injection H as <-. toks. cbn [c_toks set_flags set_alts set_ptok set_prec]. rewrite E2, E1, E0, E, T, map_app. reflexivity.
  - unfold word_outside, new_seg, new_tok in H. set (s1 := set_toks _ _) in H.
    assert (T : c_toks s1 = c_toks st ++ [tok text b d conf (Some (length (c_segs st)))]) by reflexivity. clearbody s1.
    run H. injection H as <-. assert (T2 : c_toks a1 = c_toks a0).
    { destruct (c_isfirst a0); [injection E1 as <-; reflexivity|]; toks; assumption. }
    toks. cbn [c_toks set_isfirst set_prec]. rewrite T2, E0, E, T, map_app. reflexivity.
Qed.

Definition tag_text (w : str) : bool := str_eqb w ALT_BEGIN || str_eqb w ALT_END || str_eqb w ALT.
Lemma act_bufs : forall st src chan text b d conf st', act st src chan text b d conf = Ok st' -> c_bufs st' = c_bufs st.
Proof.
  assert (B1 : forall st p t st', add_first st p t = Ok st' -> c_bufs st' = c_bufs st).
  { intros st p t st' H. unfold add_first in H. destruct (deref (c_segs st) p); try discriminate. cbn [rbind] in H.
    destruct (deref (c_toks st) t); try discriminate. cbn [rbind] in H. destruct (_ && _)%bool; [discriminate|].
    destruct t; [|discriminate]. injection H as <-. destruct p; reflexivity. }
  assert (B2 : forall st p t st', add_last st p t = Ok st' -> c_bufs st' = c_bufs st).
  { intros st p t st' H. unfold add_last in H. destruct (deref (c_segs st) p); try discriminate. cbn [rbind] in H.
    destruct (deref (c_toks st) t); try discriminate. cbn [rbind] in H. destruct (_ && _)%bool; [discriminate|].
    destruct t; [|discriminate]. injection H as <-. destruct p; reflexivity. }
  assert (B3 : forall st p e st', extend st p e = Ok st' -> c_bufs st' = c_bufs st).
  { intros st p e st' H. unfold extend in H. destruct (deref (c_segs st) p); try discriminate. cbn [rbind] in H. injection H as <-.
    destruct (_ <? _)%Z; [destruct p|]; reflexivity. }
  assert (B4 : forall st p t st', link_from st p t = Ok st' -> c_bufs st' = c_bufs st).
  { intros st p t st' H. unfold link_from in H. destruct p; [|discriminate]. injection H as <-. reflexivity. }
  assert (B5 : forall st p t st', link_lasts st p t = Ok st' -> c_bufs st' = c_bufs st).
  { intros st p t st' H. unfold link_lasts in H. destruct (deref (c_segs st) p); try discriminate. cbn [rbind] in H. injection H as <-. reflexivity. }
  intros st src chan text b d conf st' H. unfold act in H.
  destruct (str_eqb text ALT_BEGIN); [injection H as <-; reflexivity|].
  destruct (str_eqb text ALT_END); [injection H as <-; reflexivity|].
  destruct (str_eqb text ALT); [injection H as <-; reflexivity|].
  destruct (c_begin st); [|destruct (c_isalt st); [|destruct (c_inside st); [|destruct (c_isend st)]]].
  - unfold word_begin, new_seg, new_tok in H. set (s1 := set_toks _ _) in H. assert (T : c_bufs s1 = c_bufs st) by reflexivity. clearbody s1.
    destruct (c_isfirst s1).
    + cbn [rbind] in H. run H. injection H as <-. cbn [c_bufs set_flags set_alts set_ptok set_isfirst]. rewrite (B1 _ _ _ _ E). exact T.
    + destruct (c_isend s1).
      * run H. injection H as <-. unfold rbind in E. destruct (add_last _ _ _) eqn:E1; try discriminate. destruct (link_lasts _ _ _) eqn:E2; try discriminate.
        injection E as <-. cbn [c_bufs set_flags set_alts set_ptok set_isfirst]. rewrite (B1 _ _ _ _ E0). cbn [c_bufs set_flags]. rewrite (B5 _ _ _ _ E2), (B2 _ _ _ _ E1). exact T.
      * run H. injection H as <-. cbn [c_bufs set_flags set_alts set_ptok set_isfirst]. rewrite (B1 _ _ _ _ E0), (B4 _ _ _ _ E). exact T.
  - unfold word_alt, new_tok in H. set (s1 := set_toks _ _) in H. assert (T : c_bufs s1 = c_bufs st) by reflexivity. clearbody s1.
    run H. injection H as <-. assert (T2 : c_bufs a1 = c_bufs a0).
    { destruct (c_palt a0); [|destruct (c_prec a0); [|injection E1 as <-; reflexivity]]; eauto. }
    cbn [c_bufs set_flags set_ptok]. rewrite (B2 _ _ _ _ E2), T2, (B1 _ _ _ _ E0), (B3 _ _ _ _ E). exact T.
  - unfold word_inside, new_tok in H. set (s1 := set_toks _ _) in H. assert (T : c_bufs s1 = c_bufs st) by reflexivity. clearbody s1.
    run H. injection H as <-. cbn [c_bufs set_ptok]. rewrite (B4 _ _ _ _ E0), (B3 _ _ _ _ E). exact T.
  - unfold word_end, new_seg, new_tok in H. set (s1 := set_toks _ _) in H. assert (T : c_bufs s1 = c_bufs st) by reflexivity. clearbody s1.
    run H. injection H as <-. cbn [c_bufs set_flags set_alts set_ptok set_prec]. rewrite (B5 _ _ _ _ E2), (B2 _ _ _ _ E1), (B2 _ _ _ _ E0), (B1 _ _ _ _ E). exact T.
  - unfold word_outside, new_seg, new_tok in H. set (s1 := set_toks _ _) in H. assert (T : c_bufs s1 = c_bufs st) by reflexivity. clearbody s1.
    run H. injection H as <-. assert (T2 : c_bufs a1 = c_bufs a0).
    { destruct (c_isfirst a0); [injection E1 as <-; reflexivity|]; eauto. }
    cbn [c_bufs set_isfirst set_prec]. rewrite T2, (B2 _ _ _ _ E0), (B1 _ _ _ _ E). exact T.
Qed.
Lemma act_useconf : forall st src chan text b d conf st', act st src chan text b d conf = Ok st' -> c_useconf st' = c_useconf st.
Proof.
  assert (B1 : forall st p t st', add_first st p t = Ok st' -> c_useconf st' = c_useconf st).
  { intros st p t st' H. unfold add_first in H. destruct (deref (c_segs st) p); try discriminate. cbn [rbind] in H.
    destruct (deref (c_toks st) t); try discriminate. cbn [rbind] in H. destruct (_ && _)%bool; [discriminate|].
    destruct t; [|discriminate]. injection H as <-. destruct p; reflexivity. }
  assert (B2 : forall st p t st', add_last st p t = Ok st' -> c_useconf st' = c_useconf st).
  { intros st p t st' H. unfold add_last in H. destruct (deref (c_segs st) p); try discriminate. cbn [rbind] in H.
    destruct (deref (c_toks st) t); try discriminate. cbn [rbind] in H. destruct (_ && _)%bool; [discriminate|].
    destruct t; [|discriminate]. injection H as <-. destruct p; reflexivity. }
  assert (B3 : forall st p e st', extend st p e = Ok st' -> c_useconf st' = c_useconf st).
  { intros st p e st' H. unfold extend in H. destruct (deref (c_segs st) p); try discriminate. cbn [rbind] in H. injection H as <-.
    destruct (_ <? _)%Z; [destruct p|]; reflexivity. }
  assert (B4 : forall st p t st', link_from st p t = Ok st' -> c_useconf st' = c_useconf st).
  { intros st p t st' H. unfold link_from in H. destruct p; [|discriminate]. injection H as <-. reflexivity. }
  assert (B5 : forall st p t st', link_lasts st p t = Ok st' -> c_useconf st' = c_useconf st).
  { intros st p t st' H. unfold link_lasts in H. destruct (deref (c_segs st) p); try discriminate. cbn [rbind] in H. injection H as <-. reflexivity. }
  intros st src chan text b d conf st' H. unfold act in H.
  destruct (str_eqb text ALT_BEGIN); [injection H as <-; reflexivity|].
  destruct (str_eqb text ALT_END); [injection H as <-; reflexivity|].
  destruct (str_eqb text ALT); [injection H as <-; reflexivity|].
  destruct (c_begin st); [|destruct (c_isalt st); [|destruct (c_inside st); [|destruct (c_isend st)]]].
  - unfold word_begin, new_seg, new_tok in H. set (s1 := set_toks _ _) in H. assert (T : c_useconf s1 = c_useconf st) by reflexivity. clearbody s1.
    destruct (c_isfirst s1).
    + cbn [rbind] in H. run H. injection H as <-. cbn [c_useconf set_flags set_alts set_ptok set_isfirst]. rewrite (B1 _ _ _ _ E). exact T.
    + destruct (c_isend s1).
      * run H. injection H as <-. unfold rbind in E. destruct (add_last _ _ _) eqn:E1; try discriminate. destruct (link_lasts _ _ _) eqn:E2; try discriminate.
        injection E as <-. cbn [c_useconf set_flags set_alts set_ptok set_isfirst]. rewrite (B1 _ _ _ _ E0). cbn [c_useconf set_flags]. rewrite (B5 _ _ _ _ E2), (B2 _ _ _ _ E1). exact T.
      * run H. injection H as <-. cbn [c_useconf set_flags set_alts set_ptok set_isfirst]. rewrite (B1 _ _ _ _ E0), (B4 _ _ _ _ E). exact T.
  - unfold word_alt, new_tok in H. set (s1 := set_toks _ _) in H. assert (T : c_useconf s1 = c_useconf st) by reflexivity. clearbody s1.
    run H. injection H as <-. assert (T2 : c_useconf a1 = c_useconf a0).
    { destruct (c_palt a0); [|destruct (c_prec a0); [|injection E1 as <-; reflexivity]]; eauto. }
    cbn [c_useconf set_flags set_ptok]. rewrite (B2 _ _ _ _ E2), T2, (B1 _ _ _ _ E0), (B3 _ _ _ _ E). exact T.
  - unfold word_inside, new_tok in H. set (s1 := set_toks _ _) in H. assert (T : c_useconf s1 = c_useconf st) by reflexivity. clearbody s1.
    run H. injection H as <-. cbn [c_useconf set_ptok]. rewrite (B4 _ _ _ _ E0), (B3 _ _ _ _ E). exact T.
  - unfold word_end, new_seg, new_tok in H. set (s1 := set_toks _ _) in H. assert (T : c_useconf s1 = c_useconf st) by reflexivity. clearbody s1.
    run H. injection H as <-. cbn [c_useconf set_flags set_alts set_ptok set_prec]. rewrite (B5 _ _ _ _ E2), (B2 _ _ _ _ E1), (B2 _ _ _ _ E0), (B1 _ _ _ _ E). exact T.
  - unfold word_outside, new_seg, new_tok in H. set (s1 := set_toks _ _) in H. assert (T : c_useconf s1 = c_useconf st) by reflexivity. clearbody s1.
    run H. injection H as <-. assert (T2 : c_useconf a1 = c_useconf a0).
    { destruct (c_isfirst a0); [injection E1 as <-; reflexivity|]; eauto. }
    cbn [c_useconf set_isfirst set_prec]. rewrite T2, (B2 _ _ _ _ E0), (B1 _ _ _ _ E). exact T.
Qed.

Lemma scan_nth : forall bufs ws bs, scan bufs ws = Ok bs -> length bs = length bufs /\
  forall i, nth i bs None = match nth_error ws i with Some w => if Nat.ltb i (length bufs) then Some w else None | None => nth i bufs None end.
Proof.
  induction bufs as [|b bufs IH]; intros ws bs H.
  - destruct ws; injection H as <-; split; auto; intros i; destruct i; cbn; auto. destruct (nth_error ws i); reflexivity.
  - destruct ws as [|w ws]; cbn [scan] in H.
    + injection H as <-. split; [reflexivity|]. intros i. destruct i; reflexivity.
    + destruct (Nat.ltb (length w) BUFFER_SIZE); [|discriminate]. destruct (scan bufs ws) as [x| | |] eqn:E; try discriminate. cbn [rbind] in H.
      injection H as <-. destruct (IH _ _ E) as (H1 & H2). split; [cbn; auto|]. intros [|i]; [reflexivity|]. cbn [nth nth_error length]. rewrite H2. reflexivity.
Qed.
(** A line without words changes no buffer; scanning the same words again changes nothing. *)
Lemma scan_again : forall bufs ws bs, scan bufs ws = Ok bs -> scan bs ws = Ok bs.
Proof.
  induction bufs as [|b bufs IH]; intros ws bs H.
  - destruct ws; injection H as <-; reflexivity.
  - destruct ws as [|w ws]; cbn [scan] in H; [injection H as <-; reflexivity|].
    destruct (Nat.ltb (length w) BUFFER_SIZE) eqn:El; [|discriminate]. destruct (scan bufs ws) as [x| | |] eqn:E; try discriminate. cbn [rbind] in H.
    injection H as <-. cbn [scan]. rewrite El, (IH _ _ E). reflexivity.
Qed.
Lemma scan_nil : forall bufs, scan bufs [] = Ok bufs. Proof. intros [|b bufs]; reflexivity. Qed.

Lemma words_texts : forall st ws st', words_step ms st ws = Ok st' -> length (c_bufs st) = 6 -> 5 <= length ws ->
  length (c_bufs st') = 6 /\
  map ct_text (c_toks st') = map ct_text (c_toks st) ++ filter (fun w => negb (tag_text w)) [nth 4 ws []].
Proof.
  intros st ws st' H Hb Hw. unfold words_step in H. destruct (scan (c_bufs st) ws) as [bs| | |] eqn:ES; try discriminate. cbn [rbind] in H.
  destruct (scan_nth _ _ _ ES) as (L & HN). cbv zeta in H. run H.
  assert (ET : a1 = nth 4 ws []).
  { unfold buf in E1. rewrite HN, Hb in E1. destruct (nth_error ws 4) as [w|] eqn:En.
    - cbn in E1. injection E1 as <-. symmetry. apply nth_error_nth. exact En.
    - apply nth_error_None in En. lia. }
  split.
  - rewrite (act_bufs _ _ _ _ _ _ _ _ H). cbn. rewrite L. exact Hb.
  - rewrite (act_texts _ _ _ _ _ _ _ _ H). cbn [c_toks set_scan]. rewrite ET. unfold tag_text. cbn [filter]. destruct (_ || _ || _)%bool; reflexivity.
Qed.

(** A line without words after a line of five words or more. *)
Lemma step_again : forall st ws st', words_step ms st ws = Ok st' -> 5 <= length ws -> words_step ms st' [] = words_step ms st' ws.
Proof.
  intros st ws st' H Hw. unfold words_step in H. destruct (scan (c_bufs st) ws) as [bs| | |] eqn:ES; try discriminate. cbn [rbind] in H. cbv zeta in H.
  set (use := if length ws =? 5 then false else if 6 <=? length ws then true else c_useconf st) in *.
  assert (EB : c_bufs st' = bs /\ c_useconf st' = use).
  { run H. rewrite (act_bufs _ _ _ _ _ _ _ _ H), (act_useconf _ _ _ _ _ _ _ _ H). split; reflexivity. }
  destruct EB as [EB EU]. unfold words_step. rewrite scan_nil, EB, (scan_again _ _ _ ES). cbn [rbind]. cbv zeta. cbn [length Nat.eqb Nat.leb].
  assert (E2 : forall x, (if length ws =? 5 then false else if 6 <=? length ws then true else x) = use).
  { intros x. subst use. destruct (Nat.eqb_spec (length ws) 5); [reflexivity|]. destruct (Nat.leb_spec 6 (length ws)); [reflexivity|lia]. }
  rewrite EU. fold use. rewrite ?E2. reflexivity.
Qed.
End Keep.
