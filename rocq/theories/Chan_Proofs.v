(** Proofs about Chan_Model: texts, units and the words of a segment. *)
From Coq Require Import List NArith ZArith Arith Bool Lia.
From Verif Require Import Base Chan_Model Chan_Spec.
Import ListNotations.
Local Open Scope res_scope.
Local Open Scope Z_scope.

Lemma str_eqb_iff a : forall b, str_eqb a b = true <-> a = b.
Proof.
  induction a as [|x a IH]; destruct b as [|y b]; cbn [str_eqb]; split; intro E; try discriminate; auto.
  - apply andb_true_iff in E as [E1 E2]. apply N.eqb_eq in E1. apply IH in E2. subst. reflexivity.
  - inversion E; subst. apply andb_true_iff. split; [apply N.eqb_refl|apply IH; reflexivity].
Qed.
Lemma casecmp_iff p a : casecmp p a = true <-> says p a.
Proof. unfold casecmp, says. rewrite str_eqb_iff. split; intro E; symmetry; exact E. Qed.
Lemma casepre_iff p a : casepre p a = true <-> exists q r, a = q ++ r /\ says p q.
Proof.
  unfold casepre. rewrite casecmp_iff. unfold says. split.
  - intro E. exists (firstn (length p) a), (skipn (length p) a). split; [symmetry; apply firstn_skipn|symmetry; exact E].
  - intros (q & r & -> & E).
    assert (L : length q = length p) by (apply (f_equal (@length N)) in E; rewrite !map_length in E; exact E).
    rewrite <- L, firstn_app, Nat.sub_diag, firstn_all. cbn [firstn]. rewrite app_nil_r. symmetry. exact E.
Qed.
Lemma is_marker_iff w : is_marker w = true <-> alt_mark w.
Proof. apply casepre_iff. Qed.
Lemma is_marker_false w : is_marker w = false <-> ~ alt_mark w.
Proof. rewrite <- is_marker_iff. destruct (is_marker w); split; intro; congruence. Qed.
Lemma is_end_iff w : is_end w = true <-> says ALT_END (sp w).
Proof. apply casecmp_iff. Qed.
Lemma is_end_false w : is_end w = false <-> ~ says ALT_END (sp w).
Proof. rewrite <- is_end_iff. destruct (is_end w); split; intro; congruence. Qed.
Lemma is_begin_iff w : is_begin w = true <-> says ALT_BEGIN (sp w).
Proof. apply casecmp_iff. Qed.
Lemma says_prefix p q a : says (p ++ q) a -> exists x y, a = x ++ y /\ says p x.
Proof.
  intro E. unfold says in *. rewrite map_app in E.
  exists (firstn (length p) a), (skipn (length p) a). split; [symmetry; apply firstn_skipn|].
  rewrite <- firstn_map, E. rewrite <- (map_length lower p) at 1.
  rewrite firstn_app, Nat.sub_diag, firstn_all. cbn [firstn]. apply app_nil_r.
Qed.
Lemma end_marks w : says ALT_END (sp w) -> alt_mark w.
Proof. intro E. destruct (says_prefix ALT _ _ E) as (x & y & E1 & E2). exists x, y. auto. Qed.
Lemma begin_marks w : says ALT_BEGIN (sp w) -> alt_mark w.
Proof. intro E. destruct (says_prefix ALT _ _ E) as (x & y & E1 & E2). exists x, y. auto. Qed.
Lemma begin_not_end w : says ALT_BEGIN (sp w) -> ~ says ALT_END (sp w).
Proof. unfold says. intros E F. rewrite E in F. discriminate F. Qed.

Lemma strstr_iff p : forall a, strstr a p = true <-> exists x y z, a = x ++ y ++ z /\ says p y.
Proof.
  induction a as [|c a IH]; cbn [strstr].
  - rewrite orb_false_r, casepre_iff. split.
    + intros (q & r & E & F). exists [], q, r. auto.
    + intros (x & y & z & E & F). symmetry in E. apply app_eq_nil in E as [-> E]. exists y, z. auto.
  - rewrite orb_true_iff, casepre_iff, IH. split.
    + intros [(q & r & E & F) | (x & y & z & E & F)].
      * exists [], q, r. auto.
      * exists (c :: x), y, z. split; [cbn [app]; rewrite E; reflexivity|exact F].
    + intros (x & y & z & E & F). destruct x as [|d x].
      * left. exists y, z. auto.
      * right. exists x, y, z. cbn [app] in E. inversion E. auto.
Qed.
Lemma ignored_text_iff s : ignored_text s = true <-> unscored (text s).
Proof.
  unfold ignored_text, unscored. rewrite orb_true_iff, !strstr_iff. split.
  - intros [(x & y & z & E & F)|(x & y & z & E & F)]; exists x, y, z; auto.
  - intros (x & y & z & E & [F|F]); [left|right]; exists x, y, z; auto.
Qed.

(** Positions. *)
Lemma wd_at {A} (p : list A) w q i : i = Z.of_nat (length p) + 1 -> wd (p ++ w :: q) i = Ok w.
Proof.
  intros ->. unfold wd. rewrite (proj2 (Z.ltb_ge _ _)) by lia.
  replace (Z.to_nat (Z.of_nat (length p) + 1 - 1)) with (length p) by lia.
  rewrite nth_error_app2, Nat.sub_diag by lia. reflexivity.
Qed.
Lemma words_of_at {A} (p m q : list A) a b : a = Z.of_nat (length p) + 1 -> b = Z.of_nat (length p) + Z.of_nat (length m) ->
  words_of (p ++ m ++ q) a b = m.
Proof.
  intros -> ->. unfold words_of.
  replace (Z.to_nat (Z.of_nat (length p) + 1 - 1)) with (length p) by lia.
  replace (Z.to_nat _) with (length m) by lia.
  rewrite skipn_app, Nat.sub_diag, skipn_all. cbn [skipn app].
  rewrite firstn_app, Nat.sub_diag, firstn_all. cbn [firstn]. apply app_nil_r.
Qed.

(** The flags of the units. *)
Definition marked (u : unit) (m : list mword) : Prop :=
  map the_word m = spell u /\
  match u, m with
  | Word _, x :: _ => alternate x = false
  | Alts _ _ _, x :: _ => alternate x = true
  | _, [] => False
  end.

Lemma mark_alt_body body : Forall (fun w => ~ says ALT_END (sp w)) body -> forall e r, says ALT_END (sp e) ->
  exists m, mark_alternates true (body ++ e :: r) = m ++ mark_alternates false r /\ map the_word m = body ++ [e].
Proof.
  induction 1 as [|w body NE _ IH]; intros e r E; cbn [app mark_alternates].
  - rewrite (proj2 (is_end_iff e) E). cbn [orb negb andb].
    exists [{| the_word := e; alternate := true |}]. split; reflexivity.
  - rewrite (proj2 (is_end_false w) NE). cbn [orb negb andb].
    destruct (IH e r E) as (m & -> & F). exists ({| the_word := w; alternate := true |} :: m).
    split; [reflexivity|]. cbn [map the_word]. rewrite F. reflexivity.
Qed.
Lemma mark_unit u : well_formed u -> forall r,
  exists m, mark_alternates false (spell u ++ r) = m ++ mark_alternates false r /\ marked u m.
Proof.
  destruct u as [w|b body e]; cbn [well_formed spell]; intros W r.
  - cbn [app mark_alternates]. rewrite (proj2 (is_marker_false w) W). cbn [orb andb].
    exists [{| the_word := w; alternate := false |}]. split; [reflexivity|split; reflexivity].
  - destruct W as (B & NE & E). cbn [app mark_alternates].
    rewrite (proj2 (is_marker_iff b) (begin_marks b B)), (proj2 (is_end_false b) (begin_not_end b B)). cbn [orb andb negb].
    rewrite <- app_assoc. cbn [app].
    destruct (mark_alt_body body NE e r E) as (m & -> & F).
    exists ({| the_word := b; alternate := true |} :: m). split; [reflexivity|].
    split; [cbn [map the_word]; rewrite F; reflexivity|reflexivity].
Qed.
Lemma mark_units us : Forall well_formed us -> forall r,
  exists ms, mark_alternates false (flat_map spell us ++ r) = List.concat ms ++ mark_alternates false r /\ Forall2 marked us ms.
Proof.
  induction 1 as [|u us W _ IH]; intro r; cbn [flat_map].
  - exists []. split; [reflexivity|constructor].
  - rewrite <- app_assoc. destruct (mark_unit u W (flat_map spell us ++ r)) as (m & -> & M).
    destruct (IH r) as (ms & -> & F). exists (m :: ms). split; [cbn [List.concat]; rewrite <- app_assoc; reflexivity|].
    constructor; auto.
Qed.
Lemma mark_words p l : map the_word (mark_alternates p l) = l.
Proof. revert p; induction l as [|w l IH]; intro p; cbn [mark_alternates map the_word]; [reflexivity|rewrite IH; reflexivity]. Qed.

(** The middle of an alternation. *)
Lemma alt_mid_spec fuel : forall body p e q h_end ch m,
  Forall (fun w : mword => is_end w = false) body -> is_end (the_word e) = true ->
  ch = Z.of_nat (length p) + 1 -> ch + Z.of_nat (length body) <= h_end -> (length body < fuel)%nat ->
  exists m', alt_mid fuel (p ++ body ++ e :: q) h_end ch m = Ok m' /\ m <= m' /\
    (forall w : mword, In w body -> is_marker w = false -> mid2 w <= m') /\
    (m' = m \/ exists w : mword, In w body /\ is_marker w = false /\ m' = mid2 w).
Proof.
  induction fuel as [|f IH]; intros body p e q h_end ch m NE E -> H L; [lia|].
  destruct body as [|w body]; cbn [alt_mid].
  - cbn [length app] in *. rewrite (proj2 (Z.leb_le _ _)) by lia. rewrite wd_at by reflexivity. cbn [rbind].
    rewrite E. exists m. repeat split; auto; try lia. intros w [].
  - cbn [length app] in *. rewrite (proj2 (Z.leb_le _ _)) by lia. rewrite wd_at by reflexivity. cbn [rbind].
    inversion NE as [|? ? NEw NEb]; subst. rewrite NEw.
    replace (p ++ w :: body ++ e :: q) with ((p ++ [w]) ++ body ++ e :: q) by (rewrite <- app_assoc; reflexivity).
    set (m1 := if negb (is_marker w) && (m <? mid2 w) then mid2 w else m).
    destruct (IH body (p ++ [w]) e q h_end (Z.of_nat (length p) + 1 + 1) m1 NEb E) as (m' & -> & Hm & Hall & Hex).
    + rewrite app_length. cbn [length]. lia.
    + lia.
    + lia.
    + exists m'. split; [reflexivity|].
      assert (M1 : m <= m1 /\ (is_marker w = false -> mid2 w <= m1) /\ (m1 = m \/ (is_marker w = false /\ m1 = mid2 w))).
      { subst m1. destruct (is_marker w) eqn:EM; cbn [negb andb]; [repeat split; auto; try lia; discriminate|].
        destruct (m <? mid2 w) eqn:EL; [apply Z.ltb_lt in EL|apply Z.ltb_ge in EL]; repeat split; auto; lia. }
      destruct M1 as (A1 & A2 & A3). split; [lia|]. split.
      * intros x [<-|Hx] Ex; [specialize (A2 Ex); lia|auto].
      * destruct Hex as [->|(x & Hx & Ex & ->)].
        -- destruct A3 as [A3|[A3 A4]]; [left; exact A3|right; exists w; repeat split; auto; left; reflexivity].
        -- right. exists x. repeat split; auto. right; exact Hx.
Qed.
Lemma to_end_spec fuel : forall body p e q h_end k,
  Forall (fun w : mword => is_end w = false) body -> is_end (the_word e) = true ->
  k = Z.of_nat (length p) -> k + Z.of_nat (length body) <= h_end -> (length body < fuel)%nat ->
  to_end fuel (p ++ body ++ e :: q) h_end k = Ok (k + Z.of_nat (length body)).
Proof.
  induction fuel as [|f IH]; intros body p e q h_end k NE E -> H L; [lia|].
  destruct body as [|w body]; cbn [to_end length app] in *.
  - rewrite (proj2 (Z.leb_le _ _)) by lia. rewrite wd_at by reflexivity. cbn [rbind]. rewrite E. f_equal. lia.
  - rewrite (proj2 (Z.leb_le _ _)) by lia. rewrite wd_at by reflexivity. cbn [rbind].
    inversion NE as [|? ? NEw NEb]; subst. rewrite NEw.
    replace (p ++ w :: body ++ e :: q) with ((p ++ [w]) ++ body ++ e :: q) by (rewrite <- app_assoc; reflexivity).
    rewrite IH; auto.
    + f_equal. lia.
    + rewrite app_length. cbn [length]. lia.
    + lia.
    + lia.
Qed.

(** A marked alternation. *)
Lemma marked_alts b body e m : well_formed (Alts b body e) -> marked (Alts b body e) m ->
  exists mb me, m = mb ++ [me] /\ map the_word mb = b :: body /\ the_word me = e /\
    Forall (fun w : mword => is_end w = false) mb /\ is_end (the_word me) = true /\
    exists x r, mb = x :: r /\ alternate x = true.
Proof.
  intros (B & NE & E) [F G]. cbn [spell] in F.
  destruct (exists_last (l := m)) as (mb & me & ->); [intro; subst; discriminate F|].
  rewrite map_app in F. cbn [map] in F. change (b :: body ++ [e]) with ((b :: body) ++ [e]) in F.
  apply app_inj_tail in F as [F1 F2].
  exists mb, me. repeat split; auto.
  - apply Forall_map with (f := the_word) (P := fun w => is_end w = false). rewrite F1.
    constructor; [apply is_end_false, begin_not_end, B|].
    eapply Forall_impl; [|exact NE]. intros w; apply is_end_false.
  - rewrite F2. apply is_end_iff. exact E.
  - destruct mb as [|x r]; [discriminate F1|]. cbn [app] in G. eauto.
Qed.

Lemma middle_unique u m m' : middle u m -> middle u m' -> m = m'.
Proof.
  destruct u as [w|b body e]; cbn [middle]; [congruence|].
  intros (A & B & C) (A' & B' & C').
  destruct C as [->|(w & Hw & Nw & ->)], C' as [->|(w' & Hw' & Nw' & ->)]; try reflexivity.
  - specialize (B w' Hw' Nw'). lia.
  - specialize (B' w Hw Nw). lia.
  - specialize (B w' Hw' Nw'). specialize (B' w Hw Nw). lia.
Qed.

(** The middle the code computes for the next unit. *)
Lemma code_middle u m p q h_end : well_formed u -> marked u m ->
  Z.of_nat (length p) + Z.of_nat (length m) <= h_end ->
  exists x v, wd (p ++ m ++ q) (Z.of_nat (length p) + 1) = Ok x /\
    (if alternate x then alt_mid (S (length (p ++ m ++ q))) (p ++ m ++ q) h_end (Z.of_nat (length p) + 1) 0 else Ok (mid2 x)) = Ok v /\
    middle u v /\ alternate x = (match u with Word _ => false | _ => true end).
Proof.
  intros W M H. destruct u as [w|b body e].
  - destruct M as [F G]. destruct m as [|x [|? ?]]; try discriminate F. cbn [map spell] in F. inversion F; subst.
    exists x, (mid2 x). cbn [app]. rewrite wd_at by reflexivity. rewrite G. repeat split; auto.
  - destruct (marked_alts _ _ _ _ W M) as (mb & me & -> & F1 & F2 & NE & E & x & r & -> & G).
    exists x.
    destruct (alt_mid_spec (S (length (p ++ ((x :: r) ++ [me]) ++ q))) (x :: r) p me q h_end (Z.of_nat (length p) + 1) 0 NE E eq_refl) as (v & Hv & V0 & Vall & Vex).
    { rewrite app_length in H. cbn [length] in *. lia. }
    { rewrite !app_length. cbn [length]. lia. }
    exists v.
    replace (p ++ ((x :: r) ++ [me]) ++ q) with (p ++ x :: (r ++ me :: q)) at 1 by (rewrite <- !app_assoc; reflexivity).
    rewrite wd_at by reflexivity. rewrite G. split; [reflexivity|].
    replace (p ++ ((x :: r) ++ [me]) ++ q) with (p ++ (x :: r) ++ me :: q) in * by (rewrite <- !app_assoc; reflexivity).
    split; [exact Hv|]. split; [|reflexivity].
    destruct W as (B & NB & EE).
    cbn [middle spell]. split; [exact V0|]. split.
    + intros w Hw Nw.
      assert (Hin : In w (map the_word (x :: r))).
      { rewrite F1. destruct Hw as [->|Hw]; [left; reflexivity|]. apply in_app_or in Hw as [Hw|[->|[]]]; [right; exact Hw|].
        exfalso. apply Nw. apply end_marks. exact EE. }
      apply in_map_iff in Hin as (y & <- & Hy). apply (Vall y Hy). apply is_marker_false. exact Nw.
    + destruct Vex as [->|(y & Hy & My & ->)]; [left; reflexivity|]. right. exists (the_word y).
      assert (Hin : In (the_word y) (b :: body)) by (rewrite <- F1; apply in_map; exact Hy).
      split; [|split; [apply is_marker_false; exact My|reflexivity]].
      destruct Hin as [->|Hin]; [left; reflexivity|right; apply in_or_app; left; exact Hin].
Qed.

(** What a segment that is not the last one takes. *)
Lemma take_words_spec fuel : forall us ms p q limit h_end,
  Forall well_formed us -> Forall2 marked us ms -> h_end = Z.of_nat (length p) + Z.of_nat (length (List.concat ms)) ->
  (length us < fuel)%nat ->
  exists us1 us2 ms1 ms2, us = us1 ++ us2 /\ ms = ms1 ++ ms2 /\ Forall2 marked us1 ms1 /\ Forall2 marked us2 ms2 /\
    Forall (fun u => before u limit) us1 /\ match us2 with u :: _ => ~ before u limit | [] => True end /\
    take_words fuel (p ++ List.concat ms ++ q) h_end limit (Z.of_nat (length p)) = Ok (Z.of_nat (length p) + Z.of_nat (length (List.concat ms1))).
Proof.
  induction fuel as [|f IH]; intros us ms p q limit h_end W M -> L; [lia|].
  inversion M as [|u m us' ms' Mu Mus]; subst.
  - exists [], [], [], []. repeat split; auto; try constructor.
    cbn [List.concat length take_words]. rewrite (proj2 (Z.leb_gt _ _)) by lia. f_equal. lia.
  - cbn [List.concat]. inversion W as [|? ? Wu Wus]; subst.
    assert (Hm : (1 <= length m)%nat).
    { destruct Mu as [F _]. destruct m; [destruct u; discriminate F|cbn [length]; lia]. }
    destruct (code_middle u m p (List.concat ms' ++ q) (Z.of_nat (length p) + Z.of_nat (length (m ++ List.concat ms'))) Wu Mu) as (x & v & Hx & Hv & Mid & Ax).
    { rewrite app_length. lia. }
    cbn [take_words]. rewrite <- app_assoc.
    rewrite (proj2 (Z.leb_le _ _)) by (rewrite app_length; lia).
    rewrite Hx. cbn [rbind]. rewrite Hv. cbn [rbind].
    destruct (2 * limit <=? v) eqn:EL; [apply Z.leb_le in EL|apply Z.leb_gt in EL].
    + exists [], (u :: us'), [], (m :: ms'). repeat split; auto; try constructor.
      * intros (v' & Mid' & Hlt). rewrite (middle_unique _ _ _ Mid' Mid) in Hlt. lia.
      * cbn [List.concat length]. f_equal. lia.
    + assert (Bu : before u limit) by (exists v; split; [exact Mid|lia]).
      destruct (IH us' ms' (p ++ m) q limit (Z.of_nat (length p) + Z.of_nat (length (m ++ List.concat ms'))) Wus Mus) as
        (us1 & us2 & ms1 & ms2 & -> & -> & F1 & F2 & G1 & G2 & HT).
      { rewrite !app_length. lia. }
      { cbn [length] in L. lia. }
      exists (u :: us1), us2, (m :: ms1), ms2. repeat split; auto.
      rewrite <- app_assoc in HT.
      assert (LC : length (List.concat (m :: ms1)) = (length m + length (List.concat ms1))%nat) by (cbn [List.concat]; apply app_length).
      rewrite LC. clear LC.
      replace (Z.of_nat (length (p ++ m))) with (Z.of_nat (length p) + Z.of_nat (length m)) in HT by (rewrite app_length; lia).
      rewrite Ax. destruct u as [w|b body e].
      * destruct Mu as [F _]. cbn [spell] in F. destruct m as [|y [|? ?]]; try discriminate F.
        cbn [length] in *. replace (Z.of_nat (length p) + 1) with (Z.of_nat (length p) + Z.of_nat 1) by lia.
        rewrite HT. f_equal. lia.
      * destruct (marked_alts _ _ _ _ Wu Mu) as (mb & me & -> & E1 & E2 & NE & E & _).
        assert (Hlen : (length (mb ++ [me]) = S (length mb))%nat) by (rewrite app_length; cbn [length]; lia).
        replace (p ++ (mb ++ [me]) ++ List.concat (ms1 ++ ms2) ++ q) with (p ++ mb ++ me :: (List.concat (ms1 ++ ms2) ++ q)) in * by (rewrite <- !app_assoc; reflexivity).
        rewrite to_end_spec; auto.
        2:{ rewrite !app_length. cbn [length]. lia. }
        2:{ rewrite !app_length. cbn [length]. lia. }
        cbn [rbind]. rewrite (proj2 (Z.leb_le _ _)) by (rewrite !app_length; cbn [length]; lia).
        replace (Z.of_nat (length p) + Z.of_nat (length mb) + 1) with (Z.of_nat (length p) + Z.of_nat (length (mb ++ [me]))) by (rewrite Hlen; lia).
        rewrite HT. f_equal. lia.
Qed.
