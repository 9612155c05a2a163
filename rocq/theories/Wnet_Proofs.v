(** Proofs about Wnet_Model. *)
From Coq Require Import List NArith ZArith Arith Bool Lia.
From Verif Require Import Base Chan_Model Chan_Spec Chan_Proofs Wnet_Model Wnet_Spec.
Import ListNotations.
Local Open Scope res_scope.
Local Open Scope Z_scope.

Lemma tag_app l1 : forall i1 l2 i2, length l1 = length i1 -> tag (l1 ++ l2) (i1 ++ i2) = tag l1 i1 ++ tag l2 i2.
Proof. induction l1 as [|w l IH]; intros [|i i1] l2 i2 L; try discriminate L; cbn [app tag]; [reflexivity|]. rewrite IH by (cbn [length] in L; lia). reflexivity. Qed.
Lemma tag_length l : forall ig, length l = length ig -> length (tag l ig) = length l.
Proof. induction l as [|w l IH]; intros [|i ig] L; try discriminate L; cbn [tag length] in *; [reflexivity|]. rewrite IH; lia. Qed.
Lemma tag_words l : forall ig, length l = length ig -> map the_mword (tag l ig) = l.
Proof. induction l as [|w l IH]; intros [|i ig] L; try discriminate L; cbn [tag length map the_mword] in *; [reflexivity|]. rewrite IH; [reflexivity|lia]. Qed.

Lemma fold_add {A} ltr (l : list A) : forall n, fold_left (add ltr) l n = if ltr then n ++ l else rev l ++ n.
Proof.
  induction l as [|a l IH]; intro n; cbn [fold_left rev]; [destruct ltr; [rewrite app_nil_r|]; reflexivity|].
  rewrite IH. unfold add. destruct ltr; rewrite <- app_assoc; reflexivity.
Qed.

Definition plain (w : iword) : Prop := is_marker w = false.
(** A run of words up to a mark. *)
Lemma alt_words_spec ltr fuel : forall a p x q end_ i net, Forall plain a -> is_marker (the_word (the_mword x)) = true ->
  i = Z.of_nat (length p) + 1 -> i + Z.of_nat (length a) <= end_ -> (length a < fuel)%nat ->
  alt_words fuel ltr (p ++ a ++ x :: q) end_ i net = Ok (fold_left (add ltr) (map (fun w : iword => Some (the_word w)) a) net, i + Z.of_nat (length a)).
Proof.
  induction fuel as [|f IH]; intros a p x q end_ i net F M -> H L; [lia|].
  destruct a as [|w a]; cbn [alt_words app map fold_left length] in *.
  - rewrite (proj2 (Z.leb_le _ _)) by (rewrite app_length; cbn [length]; lia). rewrite (proj2 (Z.leb_le _ _)) by lia. cbn [andb].
    rewrite wd_at by reflexivity. cbn [rbind]. rewrite M. do 2 f_equal. lia.
  - rewrite (proj2 (Z.leb_le _ _)) by (rewrite app_length; cbn [length]; lia). rewrite (proj2 (Z.leb_le _ _)) by lia. cbn [andb].
    rewrite wd_at by reflexivity. cbn [rbind]. inversion F as [|? ? Pw Fa]; subst. rewrite Pw.
    replace (p ++ w :: a ++ x :: q) with ((p ++ [w]) ++ a ++ x :: q) by (rewrite <- app_assoc; reflexivity).
    rewrite IH; auto.
    + do 2 f_equal. lia.
    + rewrite app_length. cbn [length]. lia.
    + lia.
    + lia.
Qed.

Lemma sep_marks w : is_sep w = true -> is_marker w = true.
Proof. unfold is_sep. rewrite casecmp_iff. intro E. apply is_marker_iff. destruct (says_prefix ALT _ _ E) as (x & y & A & B). exists x, y. auto. Qed.
Lemma sep_not_end w : is_sep w = true -> is_end w = false.
Proof. unfold is_sep, is_end. rewrite casecmp_iff. intro E. apply is_end_false. unfold says in *. rewrite E. discriminate. Qed.
Lemma end_marker w : is_end w = true -> is_marker w = true.
Proof. intro E. apply is_marker_iff, end_marks, is_end_iff, E. Qed.
Lemma end_not_sep w : is_end w = true -> is_sep w = false.
Proof. intro E. destruct (is_sep w) eqn:S; [|reflexivity]. apply sep_not_end in S. congruence. Qed.

(** The body as tagged words. *)
Inductive Abody : list iword -> list (list iword) -> Prop :=
| ab_one a : Forall plain a -> Abody a [a]
| ab_more a s r rs : Forall plain a -> is_sep (the_word (the_mword s)) = true -> Abody r rs -> Abody (a ++ s :: r) (a :: rs).
Definition iw (w : iword) : word := the_word w.
Lemma abody_of body alts : Alternatives body alts -> forall m, map iw m = body -> exists ms, Abody m ms /\ map (map iw) ms = alts.
Proof.
  induction 1 as [a F|a s r rs F S A IH]; intros m E.
  - exists [m]. split; [|cbn [map]; rewrite E; reflexivity]. constructor. subst a. rewrite Forall_map in F.
    eapply Forall_impl; [|exact F]. intros w Hw. apply is_marker_false. exact Hw.
  - apply map_eq_app in E as (m1 & m2 & -> & E1 & E2). destruct m2 as [|x m2]; [discriminate E2|]. cbn [map] in E2. injection E2 as Ex E2.
    destruct (IH m2 E2) as (ms & B & Em). exists (m1 :: ms). split; [|cbn [map]; rewrite E1, Em; reflexivity].
    constructor; [|unfold is_sep; apply casecmp_iff; change (the_word (the_mword x)) with (iw x); rewrite Ex; exact S|exact B].
    subst a. rewrite Forall_map in F. eapply Forall_impl; [|exact F]. intros w Hw. apply is_marker_false. exact Hw.
Qed.

Definition ialt (ltr : bool) (a : list iword) : list (option word) := alternative ltr (map iw a).
Lemma ialt_fold ltr a : a <> [] -> fold_left (add ltr) (map (fun w : iword => Some (the_word w)) a) [] = ialt ltr a.
Proof.
  intro N. rewrite fold_add. unfold ialt, alternative. destruct a as [|x a]; [contradiction|].
  change (map iw (x :: a)) with (iw x :: map iw a). cbn [app].
  destruct ltr; cbn [directed].
  - cbn [map]. rewrite map_map. reflexivity.
  - rewrite app_nil_r. rewrite map_rev. cbn [map]. rewrite map_map. reflexivity.
Qed.
(** All the alternatives but the last one are not empty. *)
Fixpoint full (alts : list (list iword)) : Prop :=
  match alts with
  | [] => False
  | a :: r => match r with [] => True | _ => a <> [] /\ full r end
  end.

(** The alternatives from a first word of one; [ne]: the first one is not empty, or it is empty and
    we are at the mark before its end. *)
Lemma alternatives_spec ltr fuel : forall m ms, Abody m ms -> full ms -> hd [] ms <> [] ->
  forall p e q end_ i acc, is_end (the_word (the_mword e)) = true ->
  i = Z.of_nat (length p) + 1 -> i + Z.of_nat (length m) <= end_ -> (length ms < fuel)%nat ->
  alternatives fuel ltr (p ++ m ++ e :: q) end_ i acc = Ok (acc ++ map (ialt ltr) ms, i + Z.of_nat (length m)).
Proof.
  induction fuel as [|f IH]; intros m ms AB FU HD p e q end_ i acc E -> H L; [lia|].
  inversion AB as [a F|a s r rs F S A]; subst.
  - (* the last one *)
    cbn [hd] in HD. cbn [alternatives].
    rewrite alt_words_spec; auto.
    2:{ apply end_marker, E. }
    2:{ rewrite !app_length. lia. }
    cbn [rbind]. rewrite ialt_fold by exact HD.
    assert (NI : ialt ltr m <> []) by (unfold ialt, alternative; destruct m; [contradiction|]; cbn [map]; destruct ltr; cbn [directed map]; [discriminate|rewrite map_rev; intro X; apply (f_equal (@length _)) in X; rewrite rev_length in X; discriminate X]).
    destruct (ialt ltr m) as [|x0 x1] eqn:EI; [contradiction|]. rewrite <- EI. clear NI.
    replace (wd (p ++ m ++ e :: q) (Z.of_nat (length p) + 1 + Z.of_nat (length m))) with (Ok e).
    2:{ symmetry. rewrite app_assoc. apply wd_at. rewrite app_length. lia. }
    cbn [rbind]. rewrite (end_not_sep _ E). cbn [rbind]. rewrite E.
    rewrite (proj2 (Z.leb_le _ _)) by (rewrite !app_length; cbn [length]; lia). rewrite (proj2 (Z.leb_le _ _)) by lia. cbn [andb].
    replace (wd (p ++ m ++ e :: q) (Z.of_nat (length p) + 1 + Z.of_nat (length m))) with (Ok e).
    2:{ symmetry. rewrite app_assoc. apply wd_at. rewrite app_length. lia. }
    cbn [rbind]. rewrite E. reflexivity.
  - (* one more *)
    cbn [hd] in HD. cbn [alternatives].
    assert (Hrs : rs <> []) by (inversion A; discriminate).
    replace (p ++ (a ++ s :: r) ++ e :: q) with (p ++ a ++ s :: (r ++ e :: q)) by (rewrite <- !app_assoc; reflexivity).
    rewrite app_length in H. cbn [length] in H.
    rewrite alt_words_spec; auto.
    2:{ apply sep_marks, S. }
    2:{ lia. }
    2:{ rewrite !app_length. lia. }
    cbn [rbind]. rewrite ialt_fold by exact HD.
    assert (NI : ialt ltr a <> []) by (unfold ialt, alternative; destruct a; [contradiction|]; cbn [map]; destruct ltr; cbn [directed map]; [discriminate|rewrite map_rev; intro X; apply (f_equal (@length _)) in X; rewrite rev_length in X; discriminate X]).
    destruct (ialt ltr a) as [|x0 x1] eqn:EI; [contradiction|]. rewrite <- EI. clear NI.
    assert (W1 : wd (p ++ a ++ s :: r ++ e :: q) (Z.of_nat (length p) + 1 + Z.of_nat (length a)) = Ok s).
    { rewrite app_assoc. apply wd_at. rewrite app_length. lia. }
    rewrite W1. cbn [rbind]. rewrite S.
    destruct (r ++ e :: q) as [|v tl] eqn:ER; [destruct r; discriminate ER|].
    assert (W2 : wd (p ++ a ++ s :: v :: tl) (Z.of_nat (length p) + 1 + Z.of_nat (length a) + 1) = Ok v).
    { replace (p ++ a ++ s :: v :: tl) with ((p ++ a ++ [s]) ++ v :: tl) by (rewrite <- !app_assoc; reflexivity).
      apply wd_at. rewrite !app_length. cbn [length]. lia. }
    rewrite W2. cbn [rbind]. rewrite (sep_not_end _ S).
    assert (HL : (length (p ++ a ++ s :: v :: tl) = length p + length a + 2 + length tl)%nat) by (rewrite !app_length; cbn [length]; lia).
    destruct (is_end (the_word (the_mword v))) eqn:EV.
    + (* the last one is empty *)
      rewrite (proj2 (Z.leb_le _ _)) by (rewrite HL; lia). rewrite (proj2 (Z.leb_le _ _)) by lia. cbn [andb].
      rewrite W1. cbn [rbind]. rewrite (sep_not_end _ S).
      assert (r = []).
      { destruct r as [|y r]; [reflexivity|]. exfalso. cbn [app] in ER. injection ER as -> ER.
        inversion A as [a' F' E1 E2|a' s' r' rs' F' S' A' E1 E2].
        - inversion F' as [|? ? Py]; subst. unfold plain in Py. apply end_marker in EV. congruence.
        - destruct a' as [|y' a']; cbn [app] in E1; injection E1 as -> E1.
          + rewrite (sep_not_end _ S') in EV. discriminate.
          + inversion F' as [|? ? Py]; subst. unfold plain in Py. apply end_marker in EV. congruence. }
      subst r. cbn [app] in ER. injection ER as <- <-.
      assert (rs = [[]]).
      { inversion A as [a' F' E1 E2|a' s' r' rs' F' S' A' E1 E2]; [reflexivity|]. destruct a'; discriminate E1. }
      subst rs. cbn [length] in *.
      destruct f as [|f]; [lia|]. cbn [alternatives].
      change (p ++ a ++ s :: e :: q) with (p ++ a ++ [] ++ s :: (e :: q)). rewrite app_assoc.
      rewrite (alt_words_spec ltr _ [] (p ++ a) s (e :: q) end_ (Z.of_nat (length p) + 1 + Z.of_nat (length a)) []); [|constructor|apply sep_marks, S|rewrite app_length; lia|cbn [length]; lia|cbn [length]; lia].
      cbn [rbind map fold_left length]. cbn [app]. rewrite <- app_assoc.
      replace (Z.of_nat (length p) + 1 + Z.of_nat (length a) + Z.of_nat 0 + 1) with (Z.of_nat (length p) + 1 + Z.of_nat (length a) + 1) by lia.
      rewrite W2. cbn [rbind]. rewrite (end_not_sep _ EV). cbn [rbind]. rewrite EV.
      rewrite (proj2 (Z.leb_le _ _)) by (rewrite HL; lia). rewrite (proj2 (Z.leb_le _ _)) by lia. cbn [andb].
      rewrite W2. cbn [rbind]. rewrite EV. f_equal. f_equal.
      * rewrite <- app_assoc. reflexivity.
      * rewrite app_length. cbn [length]. lia.
    + rewrite (proj2 (Z.leb_le _ _)) by (rewrite HL; lia).
      assert (HR : (1 <= length r)%nat).
      { destruct r; [|cbn [length]; lia]. cbn [app] in ER. injection ER as <- <-. congruence. }
      rewrite (proj2 (Z.leb_le _ _)) by lia. cbn [andb].
      rewrite W2. cbn [rbind]. rewrite EV. rewrite <- ER.
      replace (p ++ a ++ s :: r ++ e :: q) with ((p ++ a ++ [s]) ++ r ++ e :: q) by (rewrite <- !app_assoc; reflexivity).
      rewrite (IH r rs A); auto.
      * cbn [map]. rewrite <- app_assoc. cbn [app]. do 2 f_equal. rewrite app_length. cbn [length]. lia.
      * cbn [full] in FU. destruct rs; [contradiction|apply FU].
      * destruct rs as [|b rs]; [contradiction|]. cbn [hd]. intro; subst b.
        (* an empty next alternative would begin with a mark *)
        inversion A as [a' F' E1 E2|a' s' r' rs' F' S' A' E1 E2]; subst.
        -- cbn [length] in HR. lia.
        -- cbn [full] in FU. destruct FU as [_ FU]. destruct rs; [inversion A'|]. apply FU. reflexivity.
      * rewrite !app_length. cbn [length]. lia.
      * lia.
      * cbn [length] in L. lia.
Qed.

Lemma add_parts ltr (net : list part) p : fold_left (add ltr) p net = if ltr then net ++ p else rev p ++ net.
Proof. apply fold_add. Qed.

Lemma proper_full alts ms : proper alts -> map (map iw) ms = alts -> full ms /\ hd [] ms <> [].
Proof.
  intros (init & a & -> & F & N) E. apply map_eq_app in E as (m1 & m2 & -> & E1 & E2).
  destruct m2 as [|x [|? ?]]; try discriminate E2. cbn [map] in E2. injection E2 as Ex.
  subst init. rewrite Forall_map in F. split.
  - clear N. induction F as [|y m1 Ny F IH]; cbn [app full]; [exact I|]. destruct (m1 ++ [x]) eqn:Em; [destruct m1; discriminate Em|].
    split; [intro; subst; apply Ny; reflexivity|exact IH].
  - destruct m1 as [|y m1]; cbn [app hd map] in *.
    + intro; subst x. apply (N eq_refl). symmetry. exact Ex.
    + inversion F as [|? ? Ny]; subst. intro; subst y. apply Ny. reflexivity.
Qed.

Lemma net_unit ltr u fu p : Contributes ltr u fu p -> well_formed u -> forall m pre q end_ f net,
  marked u (map the_mword m) -> map ignore m = fu -> Z.of_nat (length pre) + Z.of_nat (length m) <= end_ ->
  net_loop (S f) ltr (pre ++ m ++ q) end_ (Z.of_nat (length pre) + 1) net =
  net_loop f ltr (pre ++ m ++ q) end_ (Z.of_nat (length pre) + Z.of_nat (length m) + 1) (fold_left (add ltr) p net).
Proof.
  intros C W m pre q end_ f net M I H. cbn [net_loop].
  assert (HM : exists x r, m = x :: r).
  { destruct m as [|x r]; [|eauto]. destruct M as [X _]. destruct u; discriminate X. }
  destruct HM as (x & r & Em).
  rewrite (proj2 (Z.leb_le _ _)) by (rewrite !app_length, Em; cbn [length]; lia).
  rewrite (proj2 (Z.leb_le _ _)) by (rewrite Em in H; cbn [length] in H; lia). cbn [andb].
  assert (W0 : wd (pre ++ m ++ q) (Z.of_nat (length pre) + 1) = Ok x) by (rewrite Em; cbn [app]; apply wd_at; reflexivity).
  rewrite W0. cbn [rbind].
  destruct C as [w|w|b body e alts A P].
  - rewrite Em in *. cbn [map] in I. injection I as I I'. apply map_eq_nil in I'. subst r. destruct M as [M1 M2]. cbn [map spell] in M1, M2. injection M1 as M1.
    rewrite I, M2. cbn [negb andb fold_left length]. rewrite M1. f_equal; lia.
  - rewrite Em in *. cbn [map] in I. injection I as I I'. apply map_eq_nil in I'. subst r.
    rewrite I. cbn [negb andb fold_left length]. f_equal; lia.
  - destruct (marked_alts _ _ _ _ W M) as (mb & me & Emm & F1 & F2 & NE & E & x' & r' & Emb & Ax).
    apply map_eq_app in Emm as (m1 & m2 & Em12 & E1 & E2). subst mb.
    destruct m2 as [|y [|? ?]]; try discriminate E2. cbn [map] in E2. injection E2 as E2. subst me.
    destruct m1 as [|x1 m1]; [discriminate Emb|]. cbn [map] in Emb. injection Emb as Ex' Er'. subst x'.
    assert (x1 = x) by (rewrite Em12 in Em; cbn [app] in Em; congruence). subst x1.
    rewrite Em12 in *. clear Em12 Em r.
    cbn [map] in F1. injection F1 as Fb Fbody.
    assert (Ig : ignore x = false).
    { cbn [app map] in I. cbn [repeat] in I. injection I as I _. exact I. }
    rewrite Ig, Ax. cbn [negb andb].
    destruct (abody_of body alts A m1) as (ms & AB & EA). { rewrite <- Fbody, map_map. reflexivity. }
    destruct (proper_full _ _ P EA) as [FU HD].
    destruct W as (B & _ & _).
    assert (HS : skip_begin (S (length (pre ++ ((x :: m1) ++ [y]) ++ q))) (pre ++ ((x :: m1) ++ [y]) ++ q) end_ (Z.of_nat (length pre) + 1) = Ok (Z.of_nat (length pre) + 1 + 1)).
    { rewrite app_length in H. cbn [length] in H.
      set (wt := pre ++ ((x :: m1) ++ [y]) ++ q) in *.
      assert (L2 : (length wt = length pre + length m1 + 2 + length q)%nat) by (subst wt; rewrite !app_length; cbn [length]; lia).
      destruct m1 as [|z m1].
      { exfalso. inversion AB as [a F E3 E4|a s r rs F S AA E3 E4]; subst; [apply HD; reflexivity|destruct a; discriminate E3]. }
      cbn [length] in *.
      destruct (length wt) as [|g] eqn:Eg; [lia|]. cbn [skip_begin]. rewrite Eg.
      rewrite (proj2 (Z.leb_le (Z.of_nat (length pre) + 1) (Z.of_nat (S g)))) by lia.
      rewrite (proj2 (Z.leb_le (Z.of_nat (length pre) + 1) end_)) by lia. cbn [andb].
      rewrite W0. cbn [rbind]. rewrite Fb, (proj2 (is_begin_iff b) B).
      rewrite (proj2 (Z.leb_le (Z.of_nat (length pre) + 1 + 1) (Z.of_nat (S g)))) by lia.
      rewrite (proj2 (Z.leb_le (Z.of_nat (length pre) + 1 + 1) end_)) by lia. cbn [andb].
      subst wt.
      replace (wd (pre ++ ((x :: z :: m1) ++ [y]) ++ q) (Z.of_nat (length pre) + 1 + 1)) with (Ok z).
      2:{ symmetry. replace (pre ++ ((x :: z :: m1) ++ [y]) ++ q) with ((pre ++ [x]) ++ z :: (m1 ++ [y] ++ q)) by (rewrite <- !app_assoc; reflexivity).
          apply wd_at. rewrite app_length. cbn [length]. lia. }
      cbn [rbind].
      assert (PZ : plain z).
      { inversion AB as [a F E3 E4|a s r rs F S AA E3 E4]; subst; [inversion F; assumption|].
        destruct a as [|z' a]; [exfalso; apply HD; reflexivity|]. cbn [app] in E3. injection E3 as -> E3. inversion F; assumption. }
      assert (is_begin (the_word (the_mword z)) = false).
      { unfold plain in PZ. destruct (is_begin (the_word (the_mword z))) eqn:EB; [|reflexivity]. apply is_begin_iff, begin_marks, is_marker_iff in EB. congruence. }
      rewrite H0. reflexivity. }
    rewrite HS. cbn [rbind].
    replace (pre ++ ((x :: m1) ++ [y]) ++ q) with ((pre ++ [x]) ++ m1 ++ y :: q) by (rewrite <- !app_assoc; reflexivity).
    rewrite app_length in H. cbn [length] in H.
    rewrite (alternatives_spec ltr _ m1 ms AB FU HD (pre ++ [x]) y q end_ _ [] E).
    + cbn [rbind app fold_left]. f_equal.
      * cbn [length app]. rewrite ?app_length. cbn [length]. lia.
      * f_equal. f_equal. rewrite <- EA, map_map. reflexivity.
    + rewrite app_length. cbn [length]. lia.
    + lia.
    + assert (length ms <= S (length m1))%nat.
      { clear - AB. induction AB; cbn [length]; [lia|]. rewrite app_length. cbn [length]. lia. }
      rewrite !app_length. cbn [length]. lia.
Qed.

Lemma net_units ltr us fs ps : Contribute ltr us fs ps -> Forall well_formed us -> forall ms pre q end_ fuel net,
  Forall2 (fun u m => marked u (map the_mword m)) us ms -> map (map ignore) ms = fs ->
  end_ = Z.of_nat (length pre) + Z.of_nat (length (List.concat ms)) -> (length us < fuel)%nat ->
  net_loop fuel ltr (pre ++ List.concat ms ++ q) end_ (Z.of_nat (length pre) + 1) net = Ok (fold_left (add ltr) ps net).
Proof.
  induction 1 as [|u f p us fs ps Cu C IH]; intros W ms pre q end_ fuel net M I -> L.
  - inversion M; subst. destruct fuel as [|fuel]; [cbn [length] in L; lia|]. cbn [List.concat length net_loop fold_left].
    rewrite (proj2 (Z.leb_gt (Z.of_nat (length pre) + 1) (Z.of_nat (length pre) + Z.of_nat 0))) by lia. rewrite andb_false_r. reflexivity.
  - inversion M as [|? m ? ms' Mu Mus]; subst. cbn [map] in I. injection I as Iu Ius. inversion W; subst.
    destruct fuel as [|fuel]; [cbn [length] in L; lia|].
    cbn [List.concat]. rewrite <- app_assoc.
    rewrite (net_unit ltr u (map ignore m) p Cu); auto.
    2:{ rewrite app_length. lia. }
    replace (pre ++ m ++ List.concat ms' ++ q) with ((pre ++ m) ++ List.concat ms' ++ q) by (rewrite <- app_assoc; reflexivity).
    replace (Z.of_nat (length pre) + Z.of_nat (length m) + 1) with (Z.of_nat (length (pre ++ m)) + 1) by (rewrite app_length; lia).
    rewrite IH; auto.
    + rewrite fold_left_app. reflexivity.
    + rewrite !app_length. lia.
    + cbn [length] in L. lia.
Qed.
