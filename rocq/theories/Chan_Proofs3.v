(** Proofs about Chan_Model: the flags "ignore" and the channels. *)
From Coq Require Import List NArith ZArith Arith Bool Lia.
From Verif Require Import Base Chan_Model Chan_Spec Chan_Proofs Chan_Proofs2.
Import ListNotations.
Local Open Scope res_scope.
Local Open Scope Z_scope.

(** No alternation inside another one. *)
Definition flat (u : unit) : Prop :=
  match u with Word _ => True | Alts _ body _ => Forall (fun w => ~ says ALT_BEGIN (sp w)) body end.

Lemma is_begin_false w : is_begin w = false <-> ~ says ALT_BEGIN (sp w).
Proof. rewrite <- is_begin_iff. destruct (is_begin w); split; intro; congruence. Qed.

Section Flags.
Variable f : word -> bool.
Hypothesis f_mark : forall w, is_marker w = true -> f w = false.

Lemma set_flags_body v e r g : is_end e = true -> forall l, Forall (fun w => is_end w = false) l ->
  set_flags v (l ++ e :: r) (map f l ++ g :: map f r) = repeat v (length l) ++ g :: map f r.
Proof.
  intros E. induction 1 as [|w l NE _ IH]; cbn [app map set_flags length repeat].
  - rewrite E. reflexivity.
  - rewrite NE. cbn [app]. rewrite IH. reflexivity.
Qed.
Lemma usable_body e r fl : is_end e = true -> forall l, Forall (fun w => is_end w = false) l ->
  (usable (l ++ e :: r) (map f l ++ fl) = 0)%nat <-> (forall w, In w l -> is_marker w = false -> f w = true).
Proof.
  intros E. induction 1 as [|w l NE _ IH]; cbn [app map usable].
  - destruct fl; cbn [usable]; [|rewrite E]; split; auto; intros _ w [].
  - rewrite NE. split.
    + intros H x [<-|Hx] Mx.
      * rewrite Mx in H. destruct (f w); [reflexivity|cbn [negb andb] in H; lia].
      * apply (proj1 IH); [lia|exact Hx|exact Mx].
    + intro H. rewrite (proj2 IH) by (intros; apply H; [right|]; auto).
      destruct (is_marker w) eqn:EM; [reflexivity|]. rewrite (H w (or_introl eq_refl) EM). reflexivity.
Qed.
Lemma alt_flags_plain l : Forall (fun w => is_begin w = false) l -> forall r a b, length a = length l ->
  alt_flags (l ++ r) (a ++ b) = a ++ alt_flags r b.
Proof.
  induction 1 as [|w l NB _ IH]; intros r [|x a] b L; try discriminate L; [reflexivity|].
  cbn [app alt_flags]. rewrite NB. cbn [length] in L. rewrite IH by lia. reflexivity.
Qed.

Lemma alt_flags_unit u r : well_formed u -> flat u ->
  exists fu, alt_flags (spell u ++ r) (map f (spell u ++ r)) = fu ++ alt_flags r (map f r) /\
    match u with
    | Word w => fu = [f w]
    | Alts b body e => exists v, fu = repeat v (S (length body)) ++ [false] /\
        (v = true <-> forall w, In w body -> is_marker w = false -> f w = true)
    end.
Proof.
  destruct u as [w|b body e]; cbn [well_formed flat spell].
  - intros NM _. exists [f w]. split; [|reflexivity]. cbn [app map alt_flags].
    assert (NB : is_begin w = false). { apply is_begin_false. intro B. apply NM, begin_marks, B. }
    rewrite NB. reflexivity.
  - intros (B & NE & E) FL.
    assert (Eb : is_begin b = true) by (apply is_begin_iff; exact B).
    assert (Ee : is_end e = true) by (apply is_end_iff; exact E).
    assert (NEl : Forall (fun w => is_end w = false) (b :: body)).
    { constructor; [apply is_end_false, begin_not_end, B|]. eapply Forall_impl; [|exact NE]. intro; apply is_end_false. }
    assert (NBl : Forall (fun w => is_begin w = false) (body ++ [e])).
    { apply Forall_app. split; [eapply Forall_impl; [|exact FL]; intro; apply is_begin_false|]. constructor; [|constructor].
      apply is_begin_false. intro X. exact (begin_not_end _ X E). }
    assert (Fe : f e = false) by (apply f_mark, is_marker_iff, end_marks, E).
    set (v := Nat.eqb (usable ((b :: body) ++ e :: r) (map f (b :: body) ++ f e :: map f r)) 0).
    exists (repeat v (S (length body)) ++ [false]). split.
    + replace ((b :: body ++ [e]) ++ r) with ((b :: body) ++ e :: r) by (cbn [app]; rewrite <- app_assoc; reflexivity).
      replace (map f ((b :: body) ++ e :: r)) with (map f (b :: body) ++ f e :: map f r) by (rewrite map_app; reflexivity).
      cbn [app alt_flags]. rewrite Eb.
      change (Nat.eqb (usable (b :: body ++ e :: r) (map f (b :: body) ++ f e :: map f r)) 0) with v.
      change (b :: body ++ e :: r) with ((b :: body) ++ e :: r).
      rewrite set_flags_body by auto. cbn [length repeat app]. f_equal.
      replace (body ++ e :: r) with ((body ++ [e]) ++ r) by (rewrite <- app_assoc; reflexivity).
      replace (repeat v (length body) ++ f e :: map f r) with ((repeat v (length body) ++ [false]) ++ map f r) by (rewrite <- app_assoc, Fe; reflexivity).
      rewrite alt_flags_plain; auto. rewrite !app_length, repeat_length. reflexivity.
    + exists v. split; [reflexivity|]. subst v. rewrite Nat.eqb_eq, usable_body by auto. split.
      * intros H w Hw. apply H. right; exact Hw.
      * intros H w [<-|Hw] Mw; [|apply H; auto]. exfalso.
        rewrite (proj2 (is_marker_iff b) (begin_marks b B)) in Mw. discriminate.
Qed.
Lemma alt_flags_units us : Forall well_formed us -> Forall flat us ->
  exists fss, alt_flags (flat_map spell us) (map f (flat_map spell us)) = List.concat fss /\
    Forall2 (fun u fu => match u with
    | Word w => fu = [f w]
    | Alts b body e => exists v, fu = repeat v (S (length body)) ++ [false] /\
        (v = true <-> forall w, In w body -> is_marker w = false -> f w = true)
    end) us fss.
Proof.
  induction 1 as [|u us W _ IH]; intro FL; cbn [flat_map].
  - exists []. split; [reflexivity|constructor].
  - inversion FL as [|? ? Fu Fus]; subst. destruct (IH Fus) as (fss & E & F).
    destruct (alt_flags_unit u (flat_map spell us) W Fu) as (fu & -> & G).
    exists (fu :: fss). rewrite E. split; [reflexivity|]. constructor; auto.
Qed.
End Flags.

Lemma ref_end_spec o segs t : ref_end o segs < t <-> - 999999 * ups o < t /\ forall s, In s segs -> s_t2 s < t.
Proof.
  unfold ref_end. generalize (- 999999 * ups o). induction segs as [|s r IH]; intro z; cbn [fold_left].
  - split; [intro; split; auto; intros s []|tauto].
  - rewrite IH. destruct (z <? s_t2 s) eqn:E; [apply Z.ltb_lt in E|apply Z.ltb_ge in E]; split.
    + intros [A B]. split; [lia|]. intros x [<-|Hx]; auto.
    + intros [A B]. split; [apply B; left; reflexivity|]. intros x Hx; apply B; right; auto.
    + intros [A B]. split; auto. intros x [<-|Hx]; [lia|auto].
    + intros [A B]. split; auto. intros x Hx; apply B; right; auto.
Qed.
Lemma ref_begin_spec o segs t : t < ref_begin o segs <-> t < 9999999 * ups o /\ forall s, In s segs -> t < s_t1 s.
Proof.
  unfold ref_begin. generalize (9999999 * ups o). induction segs as [|s r IH]; intro z; cbn [fold_left].
  - split; [intro; split; auto; intros s []|tauto].
  - rewrite IH. destruct (s_t1 s <? z) eqn:E; [apply Z.ltb_lt in E|apply Z.ltb_ge in E]; split.
    + intros [A B]. split; [lia|]. intros x [<-|Hx]; auto.
    + intros [A B]. split; [apply B; left; reflexivity|]. intros x Hx; apply B; right; auto.
    + intros [A B]. split; auto. intros x [<-|Hx]; [lia|auto].
    + intros [A B]. split; auto. intros x Hx; apply B; right; auto.
Qed.

(** Times the constants of the code are meant for. *)
Definition sane (o : opts) (w : word) : Prop := - 999999 * ups o < t1 w /\ t1 w + dur w < 9999999 * ups o.

Lemma outside_iff o segs w : sane o w -> is_marker w = false ->
  (outside (ref_begin o segs) (ref_end o segs) w = true <-> out_of segs w).
Proof.
  intros [A B] M. unfold outside, out_of. rewrite M. cbn [negb andb].
  rewrite orb_true_iff, !Z.ltb_lt, ref_end_spec, ref_begin_spec. tauto.
Qed.

Lemma word_flags_spec o us segs : reduce_hyp o = true -> Forall well_formed us -> Forall flat us ->
  Forall (sane o) (flat_map spell us) ->
  forall used_segs, used_segs = filter (seg_used o (flat_map spell us)) segs ->
  exists fss, word_flags o (flat_map spell us) segs = List.concat fss /\ Forall2 (unit_flags used_segs) us fss.
Proof.
  intros RH W FL SN usd ->. unfold word_flags. rewrite RH.
  set (usd := filter (seg_used o (flat_map spell us)) segs).
  destruct (alt_flags_units (outside (ref_begin o usd) (ref_end o usd))) with (us := us) as (fss & E & F); auto.
  { intros w Hw. unfold outside. rewrite Hw. reflexivity. }
  exists fss. split; [exact E|]. clear E FL. clearbody usd. revert usd fss F SN.
  induction W as [|u us Wu _ IH]; intros usd fss F SN; inversion F as [|? fu ? fss' Fu F']; subst; constructor.
  - cbn [flat_map] in SN. apply Forall_app in SN as [SNu _]. destruct u as [w|b body e]; cbn [unit_flags spell well_formed] in *.
    + eexists. split; [exact Fu|]. apply outside_iff; [inversion SNu; assumption|apply is_marker_false; exact Wu].
    + destruct Fu as (v & -> & Hv). exists v. split; [reflexivity|]. rewrite Hv.
      assert (SB : forall w, In w body -> sane o w).
      { intros w Hw. rewrite Forall_forall in SNu. apply SNu. right. apply in_or_app. left. exact Hw. }
      split; intros H w Hw Nw.
      * apply (proj1 (outside_iff o usd w (SB w Hw) (proj2 (is_marker_false w) Nw))). apply H; [exact Hw|]. apply is_marker_false. exact Nw.
      * apply outside_iff; auto. apply H; [exact Hw|]. apply is_marker_false. exact Nw.
  - cbn [flat_map] in SN. apply Forall_app in SN as [_ SNs]. apply IH; auto.
Qed.
