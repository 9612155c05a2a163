From Coq Require Import List ZArith Arith Bool Lia.
From Verif Require Import Base Graph_Model Graph_Spec Links_Model Links_Spec.
Import ListNotations.
Local Open Scope res_scope.

Lemma mem_In : forall t l, mem t l = true <-> In t l.
Proof.
  intros t. induction l as [|x l IH]; simpl; [split; [discriminate|tauto]|].
  destruct (Nat.eqb_spec x t) as [->|H]; [tauto|]. rewrite IH. tauto.
Qed.
Lemma mem_notIn : forall t l, mem t l = false <-> ~ In t l.
Proof. intros t l. rewrite <- mem_In. destruct (mem t l); split; congruence. Qed.

Notation cnt := (count_occ Nat.eq_dec).

Lemma cnt_snoc : forall l a x, cnt (l ++ [a]) x = cnt l x + (if Nat.eqb a x then 1 else 0).
Proof.
  induction l as [|y l IH]; intros a x; simpl.
  - destruct (Nat.eq_dec a x), (Nat.eqb_spec a x); congruence.
  - rewrite IH. destruct (Nat.eq_dec y x); lia.
Qed.

Lemma NoDup_app_intro : forall (l1 l2 : list nat), NoDup l1 -> NoDup l2 ->
  (forall x, In x l1 -> In x l2 -> False) -> NoDup (l1 ++ l2).
Proof.
  induction l1 as [|a l1 IH]; intros l2 H1 H2 H; [exact H2|]. inversion H1; subst. simpl. constructor.
  - intros Hi. apply in_app_or in Hi. destruct Hi as [Hi|Hi]; [contradiction|]. apply (H a); [now left|exact Hi].
  - apply IH; auto. intros x Hx. apply H. now right.
Qed.

Lemma erase_cnt : forall x l l', erase x l = Some l' ->
  forall y, cnt l y = cnt l' y + (if Nat.eqb x y then 1 else 0).
Proof.
  intros x. induction l as [|z l IH]; intros l' H y; simpl in H; [discriminate|].
  destruct (Nat.eqb_spec z x) as [->|Hzx].
  - inversion H; subst. simpl. destruct (Nat.eq_dec x y), (Nat.eqb_spec x y); try congruence; lia.
  - destruct (erase x l) as [r|] eqn:E; [|discriminate]. inversion H; subst. simpl.
    rewrite (IH r eq_refl y). destruct (Nat.eq_dec z y); lia.
Qed.

Lemma erase_some : forall x l, In x l -> exists l', erase x l = Some l'.
Proof.
  intros x. induction l as [|z l IH]; intros H; [destruct H|]. simpl.
  destruct (Nat.eqb_spec z x); [eauto|]. destruct H as [H|H]; [congruence|].
  destruct (IH H) as (l' & ->). eauto.
Qed.

Lemma erase_in : forall x l l', erase x l = Some l' -> NoDup l ->
  NoDup l' /\ forall y, In y l' <-> In y l /\ y <> x.
Proof.
  intros x l l' H Hnd. pose proof (erase_cnt x l l' H) as Hc.
  pose proof (proj1 (NoDup_count_occ Nat.eq_dec l) Hnd) as Hn. split.
  - apply (NoDup_count_occ Nat.eq_dec). intros y. specialize (Hc y). specialize (Hn y). lia.
  - intros y. specialize (Hc y). specialize (Hn y).
    rewrite !(count_occ_In Nat.eq_dec). destruct (Nat.eqb_spec x y); split; intros; try lia.
Qed.

Lemma erase_len : forall x l l', erase x l = Some l' -> length l = S (length l').
Proof.
  intros x. induction l as [|z l IH]; intros l' H; simpl in H; [discriminate|].
  destruct (Nat.eqb z x); [inversion H; reflexivity|].
  destruct (erase x l) as [r|]; [|discriminate]. inversion H; subst. simpl. rewrite (IH r eq_refl). reflexivity.
Qed.

Lemma upd_same : forall A (f : nat -> A) k v, upd f k v k = v.
Proof. intros. unfold upd. rewrite Nat.eqb_refl. reflexivity. Qed.
Lemma upd_other : forall A (f : nat -> A) k v x, x <> k -> upd f k v x = f x.
Proof. intros. unfold upd. destruct (Nat.eqb_spec x k); congruence. Qed.

(** ** Counts after each primitive *)
Definition nc (h : links) a b := cnt (nxt h a) b.
Definition pc (h : links) a b := cnt (prc h b) a.
Definition is (a b x y : nat) : nat := if Nat.eqb a x && Nat.eqb b y then 1 else 0.

Lemma nc_add_next : forall h a b x y, nc (add_next h a b) x y = nc h x y + is a b x y.
Proof.
  intros. unfold nc, is. simpl. unfold upd. rewrite (Nat.eqb_sym x a). destruct (Nat.eqb_spec a x) as [->|H]; simpl; [|lia].
  apply cnt_snoc.
Qed.
Lemma pc_add_next : forall h a b x y, pc (add_next h a b) x y = pc h x y.
Proof. reflexivity. Qed.
Lemma nc_add_prec : forall h a b x y, nc (add_prec h b a) x y = nc h x y.
Proof. reflexivity. Qed.
Lemma pc_add_prec : forall h a b x y, pc (add_prec h b a) x y = pc h x y + is a b x y.
Proof.
  intros. unfold pc, is. simpl. unfold upd. rewrite (Nat.eqb_sym y b). destruct (Nat.eqb_spec b y) as [->|H]; simpl.
  - rewrite cnt_snoc. destruct (Nat.eqb a x); reflexivity.
  - rewrite andb_false_r. lia.
Qed.
Lemma nc_link : forall h a b x y, nc (link_tokens h a b) x y = nc h x y + is a b x y.
Proof. intros. unfold link_tokens. rewrite nc_add_next, nc_add_prec. reflexivity. Qed.
Lemma pc_link : forall h a b x y, pc (link_tokens h a b) x y = pc h x y + is a b x y.
Proof. intros. unfold link_tokens. rewrite pc_add_next, pc_add_prec. reflexivity. Qed.
Lemma nc_link2 : forall h a b x y, nc (add_prec (add_next h a b) b a) x y = nc h x y + is a b x y.
Proof. intros. rewrite nc_add_prec, nc_add_next. reflexivity. Qed.
Lemma pc_link2 : forall h a b x y, pc (add_prec (add_next h a b) b a) x y = pc h x y + is a b x y.
Proof. intros. rewrite pc_add_prec, pc_add_next. reflexivity. Qed.

Lemma nc_unlink : forall h h' a b, unlink_tokens h a b = Ok h' ->
  forall x y, nc h x y = nc h' x y + is a b x y.
Proof.
  intros h h' a b H x y. unfold unlink_tokens in H.
  destruct (erase b (nxt h a)) as [l|] eqn:E1; [|discriminate].
  destruct (erase a (prc h b)) as [l'|] eqn:E2; [|discriminate]. inversion H; subst.
  unfold nc, is. simpl. unfold upd. rewrite (Nat.eqb_sym x a). destruct (Nat.eqb_spec a x) as [->|Hn]; simpl; [|lia].
  apply erase_cnt. exact E1.
Qed.
Lemma pc_unlink : forall h h' a b, unlink_tokens h a b = Ok h' ->
  forall x y, pc h x y = pc h' x y + is a b x y.
Proof.
  intros h h' a b H x y. unfold unlink_tokens in H.
  destruct (erase b (nxt h a)) as [l|] eqn:E1; [|discriminate].
  destruct (erase a (prc h b)) as [l'|] eqn:E2; [|discriminate]. inversion H; subst.
  unfold pc, is. simpl. unfold upd. rewrite (Nat.eqb_sym y b). destruct (Nat.eqb_spec b y) as [->|Hn]; simpl.
  - rewrite (erase_cnt _ _ _ E2). destruct (Nat.eqb a x); reflexivity.
  - rewrite andb_false_r. lia.
Qed.

Lemma mutual_iff : forall h, mutual h <-> forall a b, nc h a b = pc h a b.
Proof. reflexivity. Qed.

Lemma unlink_ok : forall h a b, mutual h -> edge h a b -> exists h', unlink_tokens h a b = Ok h'.
Proof.
  intros h a b Hm He. unfold unlink_tokens.
  destruct (erase_some b (nxt h a) He) as (l & ->).
  assert (In a (prc h b)).
  { apply (count_occ_In Nat.eq_dec). rewrite <- Hm. apply (count_occ_In Nat.eq_dec). exact He. }
  destruct (erase_some a (prc h b) H) as (l' & ->). eauto.
Qed.

Lemma mutual_unlink : forall h a b h', mutual h -> unlink_tokens h a b = Ok h' -> mutual h'.
Proof.
  intros h a b h' Hm H x y. pose proof (nc_unlink _ _ _ _ H x y). pose proof (pc_unlink _ _ _ _ H x y).
  specialize (Hm x y). unfold nc, pc in *. lia.
Qed.

Lemma mutual_link : forall h a b, mutual h -> mutual (link_tokens h a b).
Proof. intros h a b Hm x y. pose proof (nc_link h a b x y). pose proof (pc_link h a b x y).
  specialize (Hm x y). unfold nc, pc in *. lia. Qed.
Lemma mutual_link2 : forall h a b, mutual h -> mutual (add_prec (add_next h a b) b a).
Proof. intros h a b Hm x y. pose proof (nc_link2 h a b x y). pose proof (pc_link2 h a b x y).
  specialize (Hm x y). unfold nc, pc in *. lia. Qed.

(** ** Generic folds of links *)
Definition Mem (x : nat) (l : list nat) : Prop := In x l.

Lemma edge_cnt : forall h a b, edge h a b <-> 0 < nc h a b.
Proof. intros. unfold edge, nc. rewrite (count_occ_In Nat.eq_dec). reflexivity. Qed.
Lemma is_pos : forall a b x y, 0 < is a b x y <-> x = a /\ y = b.
Proof. intros. unfold is. destruct (Nat.eqb_spec a x), (Nat.eqb_spec b y); simpl; split; intros; try lia; try tauto.
  all: destruct H; congruence. Qed.

Lemma edge_link : forall h a b x y, edge (link_tokens h a b) x y <-> edge h x y \/ (x = a /\ y = b).
Proof. intros. rewrite !edge_cnt, nc_link, <- is_pos. lia. Qed.
Lemma edge_link2 : forall h a b x y, edge (add_prec (add_next h a b) b a) x y <-> edge h x y \/ (x = a /\ y = b).
Proof. intros. rewrite !edge_cnt, nc_link2, <- is_pos. lia. Qed.

Lemma row_spec : forall froms h t,
  (mutual h -> mutual (link_row h froms t)) /\
  forall x y, edge (link_row h froms t) x y <-> edge h x y \/ (In x froms /\ y = t).
Proof.
  unfold link_row. induction froms as [|p r IH]; intros h t; simpl.
  - split; [auto|]. intros; tauto.
  - destruct (IH (link_tokens h p t) t) as [IH1 IH2]. split.
    + intros Hm. apply IH1. apply mutual_link. exact Hm.
    + intros x y. rewrite IH2, edge_link. split; intros; intuition (subst; auto).
Qed.
Lemma col_spec : forall tos h e,
  (mutual h -> mutual (link_col h e tos)) /\
  forall x y, edge (link_col h e tos) x y <-> edge h x y \/ (x = e /\ In y tos).
Proof.
  unfold link_col. induction tos as [|p r IH]; intros h t; simpl.
  - split; [auto|]. intros; tauto.
  - destruct (IH (link_tokens h t p) t) as [IH1 IH2]. split.
    + intros Hm. apply IH1. apply mutual_link. exact Hm.
    + intros x y. rewrite IH2, edge_link. split; intros; intuition (subst; auto).
Qed.
Lemma rows_spec : forall starts h prevs,
  let h' := fold_left (fun h st => link_row h prevs st) starts h in
  (mutual h -> mutual h') /\
  forall x y, edge h' x y <-> edge h x y \/ (In x prevs /\ In y starts).
Proof.
  induction starts as [|p r IH]; intros h prevs; simpl.
  - split; [auto|]. intros; tauto.
  - destruct (IH (link_row h prevs p) prevs) as [IH1 IH2]. destruct (row_spec prevs h p) as [R1 R2].
    split; [auto|]. intros x y. rewrite IH2, R2. split; intros; intuition (subst; auto).
Qed.
Lemma cols_spec : forall ends h nexts,
  let h' := fold_left (fun h en => link_col h en nexts) ends h in
  (mutual h -> mutual h') /\
  forall x y, edge h' x y <-> edge h x y \/ (In x ends /\ In y nexts).
Proof.
  induction ends as [|p r IH]; intros h nexts; simpl.
  - split; [auto|]. intros; tauto.
  - destruct (IH (link_col h p nexts) nexts) as [IH1 IH2]. destruct (col_spec nexts h p) as [R1 R2].
    split; [auto|]. intros x y. rewrite IH2, R2. split; intros; intuition (subst; auto).
Qed.

Lemma attach_inner : forall fs h l,
  let h' := fold_left (fun h f => add_prec (add_next h l f) f l) fs h in
  (mutual h -> mutual h') /\ forall x y, edge h' x y <-> edge h x y \/ (x = l /\ In y fs).
Proof.
  induction fs as [|p r IH]; intros h t; simpl.
  - split; [auto|]. intros; tauto.
  - destruct (IH (add_prec (add_next h t p) p t) t) as [IH1 IH2]. split.
    + intros Hm. apply IH1. apply mutual_link2. exact Hm.
    + intros x y. rewrite IH2, edge_link2. split; intros; intuition (subst; auto).
Qed.
Lemma attach_spec : forall ls fs h,
  (mutual h -> mutual (attach h ls fs)) /\
  forall x y, edge (attach h ls fs) x y <-> edge h x y \/ (In x ls /\ In y fs).
Proof.
  unfold attach. induction ls as [|p r IH]; intros fs h; simpl.
  - split; [auto|]. intros; tauto.
  - destruct (IH fs (fold_left (fun h f => add_prec (add_next h p f) f p) fs h)) as [IH1 IH2].
    destruct (attach_inner fs h p) as [R1 R2].
    split; [auto|]. intros x y. rewrite IH2, R2. split; intros; intuition (subst; auto).
Qed.

(** ** Unlinking loops *)
Lemma prec_edge : forall h a b, mutual h -> (In a (prc h b) <-> edge h a b).
Proof.
  intros h a b Hm. unfold edge. rewrite !(count_occ_In Nat.eq_dec). rewrite Hm. reflexivity.
Qed.

Lemma unlink_all_prec_spec : forall fuel h t, mutual h -> length (prc h t) <= fuel ->
  exists h', unlink_all_prec fuel h t = Ok h' /\ mutual h' /\ prc h' t = [] /\
    forall x y, edge h' x y <-> edge h x y /\ y <> t.
Proof.
  induction fuel as [|fuel IH]; intros h t Hm Hlen.
  - destruct (prc h t) eqn:E; [|simpl in Hlen; lia]. exists h. simpl. rewrite E.
    split; [reflexivity|]. split; [exact Hm|]. split; [reflexivity|].
    intros x y. split; [|tauto]. intros H. split; [exact H|]. intros ->.
    apply (prec_edge h x t Hm) in H. rewrite E in H. exact H.
  - cbn [unlink_all_prec]. destruct (prc h t) as [|p r] eqn:E.
    + exists h. split; [reflexivity|]. split; [exact Hm|]. split; [exact E|].
      intros x y. split; [|tauto]. intros H. split; [exact H|]. intros ->.
      apply (prec_edge h x t Hm) in H. rewrite E in H. exact H.
    + assert (He : edge h p t) by (apply prec_edge; [exact Hm|]; rewrite E; now left).
      destruct (unlink_ok h p t Hm He) as (h1 & E1). rewrite E1. cbn [rbind].
      assert (Hm1 : mutual h1) by (eapply mutual_unlink; eassumption).
      destruct (IH h1 t Hm1) as (h' & E' & Hm' & Hp & He').
      { unfold unlink_tokens in E1. destruct (erase t (nxt h p)); [|discriminate].
        destruct (erase p (prc h t)) as [l'|] eqn:E2; [|discriminate]. inversion E1; subst. simpl.
        rewrite upd_same. rewrite E in E2. apply erase_len in E2. simpl in *. lia. }
      exists h'. split; [exact E'|]. split; [exact Hm'|]. split; [exact Hp|].
      intros x y. rewrite He', !edge_cnt. pose proof (nc_unlink _ _ _ _ E1 x y) as Hc.
      unfold is in Hc. destruct (Nat.eqb_spec t y) as [->|Hty].
      * split; intros [_ []]; reflexivity.
      * rewrite andb_false_r in Hc. rewrite Hc, Nat.add_0_r. reflexivity.
Qed.

Lemma unlink_all_next_spec : forall fuel h t, mutual h -> length (nxt h t) <= fuel ->
  exists h', unlink_all_next fuel h t = Ok h' /\ mutual h' /\ nxt h' t = [] /\
    forall x y, edge h' x y <-> edge h x y /\ x <> t.
Proof.
  induction fuel as [|fuel IH]; intros h t Hm Hlen.
  - destruct (nxt h t) eqn:E; [|simpl in Hlen; lia]. exists h. simpl. rewrite E.
    split; [reflexivity|]. split; [exact Hm|]. split; [reflexivity|].
    intros x y. split; [|tauto]. intros H. split; [exact H|]. intros ->.
    unfold edge in H. rewrite E in H. exact H.
  - cbn [unlink_all_next]. destruct (nxt h t) as [|p r] eqn:E.
    + exists h. split; [reflexivity|]. split; [exact Hm|]. split; [exact E|].
      intros x y. split; [|tauto]. intros H. split; [exact H|]. intros ->.
      unfold edge in H. rewrite E in H. exact H.
    + assert (He : edge h t p) by (unfold edge; rewrite E; now left).
      destruct (unlink_ok h t p Hm He) as (h1 & E1). rewrite E1. cbn [rbind].
      assert (Hm1 : mutual h1) by (eapply mutual_unlink; eassumption).
      destruct (IH h1 t Hm1) as (h' & E' & Hm' & Hp & He').
      { unfold unlink_tokens in E1. destruct (erase p (nxt h t)) as [l'|] eqn:E2; [|discriminate].
        destruct (erase t (prc h p)); [|discriminate]. inversion E1; subst. simpl.
        rewrite upd_same. rewrite E in E2. apply erase_len in E2. simpl in *. lia. }
      exists h'. split; [exact E'|]. split; [exact Hm'|]. split; [exact Hp|].
      intros x y. rewrite He', !edge_cnt. pose proof (nc_unlink _ _ _ _ E1 x y) as Hc.
      unfold is in Hc. destruct (Nat.eqb_spec t x) as [->|Hty].
      * split; intros [_ []]; reflexivity.
      * cbn [andb] in Hc. rewrite Hc, Nat.add_0_r. reflexivity.
Qed.

Lemma add_all_first_spec : forall tm l s, (forall t, In t l -> fits_begin tm s t) ->
  add_all (add_first tm) s l =
  Ok {| sg_first := sg_first s ++ l; sg_last := sg_last s; sg_begin := sg_begin s; sg_end := sg_end s |}.
Proof.
  intros tm. induction l as [|t l IH]; intros s H.
  - destruct s; simpl. rewrite app_nil_r. reflexivity.
  - cbn [add_all]. unfold add_first at 1.
    assert (E : (negb (tk_begin tm t =? -1)%Z && (tk_begin tm t <? sg_begin s)%Z)%bool = false).
    { destruct (H t (or_introl eq_refl)) as [->|Hb]; [reflexivity|].
      apply andb_false_intro2. apply Z.ltb_ge. exact Hb. }
    rewrite E. cbn [rbind]. rewrite IH; [simpl; rewrite <- app_assoc; reflexivity|].
    intros u Hu. apply (H u). now right.
Qed.
Lemma add_all_last_spec : forall tm l s, (forall t, In t l -> fits_end tm s t) ->
  add_all (add_last tm) s l =
  Ok {| sg_first := sg_first s; sg_last := sg_last s ++ l; sg_begin := sg_begin s; sg_end := sg_end s |}.
Proof.
  intros tm. induction l as [|t l IH]; intros s H.
  - destruct s; simpl. rewrite app_nil_r. reflexivity.
  - cbn [add_all]. unfold add_last at 1.
    assert (E : (negb (tk_end tm t =? -1)%Z && (sg_end s <? tk_end tm t)%Z)%bool = false).
    { destruct (H t (or_introl eq_refl)) as [->|Hb]; [reflexivity|].
      apply andb_false_intro2. apply Z.ltb_ge. exact Hb. }
    rewrite E. cbn [rbind]. rewrite IH; [simpl; rewrite <- app_assoc; reflexivity|].
    intros u Hu. apply (H u). now right.
Qed.
Lemma add_all_first_inv : forall tm l s s', add_all (add_first tm) s l = Ok s' ->
  sg_first s' = sg_first s ++ l /\ sg_last s' = sg_last s.
Proof.
  intros tm. induction l as [|t l IH]; intros s s' H.
  - inversion H; subst. rewrite app_nil_r. auto.
  - cbn [add_all] in H. unfold add_first at 1 in H.
    destruct (negb (tk_begin tm t =? -1)%Z && (tk_begin tm t <? sg_begin s)%Z)%bool; [discriminate|].
    cbn [rbind] in H. apply IH in H. simpl in H. rewrite <- app_assoc in H. exact H.
Qed.

Definition with_first (s : segment) l := {| sg_first := l; sg_last := sg_last s; sg_begin := sg_begin s; sg_end := sg_end s |}.
Definition with_last (s : segment) l := {| sg_first := sg_first s; sg_last := l; sg_begin := sg_begin s; sg_end := sg_end s |}.

(** A replacement is a change of the links and a change of the segment's two lists. *)
Definition link_part (h : links) (t : nat) (starts ends : list nat) : res links :=
  let h1 := fold_left (fun h0 st => link_row h0 (prc h t) st) starts h in
  let h2 := fold_left (fun h0 en => link_col h0 en (nxt h1 t)) ends h1 in
  let* h3 := unlink_all_prec (length (prc h2 t)) h2 t in
  unlink_all_next (length (nxt h3 t)) h3 t.
Definition seg_part (tm : times) (s : segment) (t : nat) (starts ends : list nat) : res segment :=
  let* s1 := (if is_first_token s t then add_all (add_first tm) s starts else Ok s) in
  let* s2 := (if is_last_token s1 t then add_all (add_last tm) s1 ends else Ok s1) in
  let* s3 := (if is_first_token s2 t
              then match erase t (sg_first s2) with
                   | Some l => Ok (with_first s2 l) | None => Exit end
              else Ok s2) in
  if is_last_token s3 t
  then match erase t (sg_last s3) with
       | Some l => Ok (with_last s3 l) | None => Exit end
  else Ok s3.

Lemma replace_split : forall tm h s t starts ends,
  replace_token tm h s t starts ends =
  let* s' := seg_part tm s t starts ends in
  let* h' := link_part h t starts ends in Ok (h', s').
Proof.
  intros. unfold replace_token, seg_part, link_part. cbn zeta.
  destruct (if is_first_token s t then _ else _) as [s1| | |]; cbn [rbind]; try reflexivity.
  destruct (if is_last_token s1 t then _ else _) as [s2| | |]; cbn [rbind]; try reflexivity.
  change (match erase t (sg_first s2) with
    | Some l => Ok {| sg_first := l; sg_last := sg_last s2; sg_begin := sg_begin s2; sg_end := sg_end s2 |}
    | None => Exit end) with (match erase t (sg_first s2) with Some l => Ok (with_first s2 l) | None => Exit end).
  destruct (if is_first_token s2 t then _ else _) as [s3| | |]; cbn [rbind]; try reflexivity.
  change (match erase t (sg_last s3) with
    | Some l => Ok {| sg_first := sg_first s3; sg_last := l; sg_begin := sg_begin s3; sg_end := sg_end s3 |}
    | None => Exit end) with (match erase t (sg_last s3) with Some l => Ok (with_last s3 l) | None => Exit end).
  destruct (if is_last_token s3 t then _ else _) as [s4| | |]; cbn [rbind]; try reflexivity.
  destruct (unlink_all_prec _ _ t) as [h3| | |]; cbn [rbind]; reflexivity.
Qed.

Lemma link_part_spec : forall h t starts ends, mutual h ->
  exists h', link_part h t starts ends = Ok h' /\ mutual h' /\ nxt h' t = [] /\ prc h' t = [] /\
      (~ In t starts -> ~ In t ends -> ~ edge h t t ->
       forall x y, edge h' x y <->
         x <> t /\ y <> t /\
         (edge h x y \/ (edge h x t /\ In y starts) \/ (In x ends /\ edge h t y))).
Proof.
  intros h t starts ends Hm. unfold link_part. cbn zeta.
  set (h1 := fold_left _ starts h).
  destruct (rows_spec starts h (prc h t)) as [R1 R2]. fold h1 in R1, R2.
  set (h2 := fold_left _ ends h1).
  destruct (cols_spec ends h1 (nxt h1 t)) as [C1 C2]. fold h2 in C1, C2.
  assert (Hm2 : mutual h2) by auto.
  destruct (unlink_all_prec_spec (length (prc h2 t)) h2 t Hm2 (le_n _)) as (h3 & E3 & Hm3 & Hp3 & He3).
  rewrite E3. cbn [rbind].
  destruct (unlink_all_next_spec (length (nxt h3 t)) h3 t Hm3 (le_n _)) as (h4 & E4 & Hm4 & Hn4 & He4).
  exists h4. split; [exact E4|].
  split; [exact Hm4|]. split; [exact Hn4|]. split.
  { destruct (prc h4 t) as [|p r] eqn:E; [reflexivity|exfalso].
    assert (He : edge h4 p t) by (apply prec_edge; [exact Hm4|]; rewrite E; now left).
    apply He4 in He. destruct He as [He _]. apply He3 in He. tauto. }
  intros Hs He Htt x y. rewrite He4, He3, C2, R2.
  assert (Hn : forall y, In y (nxt h1 t) <-> edge h t y).
  { intros z. change (edge h1 t z <-> edge h t z). rewrite R2, (prec_edge h t t Hm). tauto. }
  rewrite Hn, (prec_edge h x t Hm). 
  assert (x = t -> In x ends -> False) by (intros ->; exact He).
  assert (y = t -> In y starts -> False) by (intros ->; exact Hs).
  tauto.
Qed.

Lemma erase_app : forall t l r, In t l -> ~ In t r -> NoDup l ->
  exists l', erase t (l ++ r) = Some l' /\ forall x, In x l' <-> x <> t /\ (In x l \/ In x r).
Proof.
  intros t l r Hi Hr Hnd. destruct (erase_some t (l ++ r)) as (l' & E); [apply in_or_app; auto|].
  exists l'. split; [exact E|]. intros x. pose proof (erase_cnt _ _ _ E x) as Hc.
  rewrite <- in_app_iff, !(count_occ_In Nat.eq_dec).
  destruct (Nat.eqb_spec t x) as [->|Hx]; [|lia].
  rewrite count_occ_app in Hc. rewrite (proj1 (count_occ_not_In Nat.eq_dec r x) Hr) in Hc.
  pose proof (proj1 (NoDup_count_occ Nat.eq_dec l) Hnd x). rewrite count_occ_app.
  rewrite (proj1 (count_occ_not_In Nat.eq_dec r x) Hr). lia.
Qed.

Lemma seg_part_spec : forall tm s t starts ends,
  (forall x, In x starts -> fits_begin tm s x) -> (forall x, In x ends -> fits_end tm s x) ->
  ~ In t starts -> ~ In t ends -> NoDup (sg_first s) -> NoDup (sg_last s) ->
  exists s', seg_part tm s t starts ends = Ok s' /\
    (forall x, In x (sg_first s') <-> x <> t /\ (In x (sg_first s) \/ (In t (sg_first s) /\ In x starts))) /\
    (forall x, In x (sg_last s') <-> x <> t /\ (In x (sg_last s) \/ (In t (sg_last s) /\ In x ends))).
Proof.
  intros tm s t starts ends Hb He Hs Hen Nf Nl. unfold seg_part.
  assert (Hend : forall s0, sg_end s0 = sg_end s -> forall x, In x ends -> fits_end tm s0 x).
  { intros s0 E0 x Hx. unfold fits_end. rewrite E0. apply He. exact Hx. }
  assert (Hno : forall l x, ~ In t l -> (In x l <-> x <> t /\ In x l)).
  { intros l x H. split; [|tauto]. intros Hx. split; [intros ->; contradiction|exact Hx]. }
  unfold is_first_token, is_last_token.
  destruct (mem t (sg_first s)) eqn:Ef, (mem t (sg_last s)) eqn:El.
  - rewrite add_all_first_spec by exact Hb. cbn [rbind sg_last]. rewrite El.
    rewrite add_all_last_spec by (apply Hend; reflexivity). cbn [rbind sg_first sg_last].
    apply mem_In in Ef, El.
    rewrite (proj2 (mem_In t (sg_first s ++ starts))) by (apply in_or_app; auto).
    destruct (erase_app t (sg_first s) starts Ef Hs Nf) as (l1 & E1 & H1). rewrite E1. cbn [rbind with_first sg_last].
    rewrite (proj2 (mem_In t (sg_last s ++ ends))) by (apply in_or_app; auto).
    destruct (erase_app t (sg_last s) ends El Hen Nl) as (l2 & E2 & H2). rewrite E2.
    eexists. split; [reflexivity|]. simpl. split; intros x; [rewrite H1|rewrite H2]; tauto.
  - rewrite add_all_first_spec by exact Hb. cbn [rbind sg_last]. rewrite El. cbn [rbind sg_first].
    apply mem_In in Ef.
    rewrite (proj2 (mem_In t (sg_first s ++ starts))) by (apply in_or_app; auto).
    destruct (erase_app t (sg_first s) starts Ef Hs Nf) as (l1 & E1 & H1). rewrite E1. cbn [rbind with_first sg_last].
    rewrite El. apply mem_notIn in El.
    eexists. split; [reflexivity|]. simpl. split; intros x; [rewrite H1; tauto|]. rewrite (Hno _ x El) at 1. tauto.
  - cbn [rbind]. rewrite El.
    rewrite add_all_last_spec by (apply Hend; reflexivity). cbn [rbind sg_first sg_last]. rewrite Ef. cbn [rbind sg_last].
    apply mem_In in El. apply mem_notIn in Ef.
    rewrite (proj2 (mem_In t (sg_last s ++ ends))) by (apply in_or_app; auto).
    destruct (erase_app t (sg_last s) ends El Hen Nl) as (l2 & E2 & H2). rewrite E2.
    eexists. split; [reflexivity|]. simpl. split; intros x; [rewrite (Hno _ x Ef) at 1; tauto|rewrite H2; tauto].
  - cbn [rbind]. rewrite El. cbn [rbind]. rewrite Ef. cbn [rbind]. rewrite El.
    apply mem_notIn in Ef, El.
    eexists. split; [reflexivity|]. split; intros x; [rewrite (Hno _ x Ef) at 1|rewrite (Hno _ x El) at 1]; tauto.
Qed.

(** ** Flattening *)
Section Flat.
Variable nx : nat -> list nat.
Variable lasts : list nat.
Variable U : list nat.
Hypothesis Hclosed : closed nx U.

Definition left_over (done : list nat) : nat := length (filter (fun x => negb (mem x done)) U).

Lemma remain_le : forall d1 d2 l, incl d1 d2 ->
  length (filter (fun x => negb (mem x d2)) l) <= length (filter (fun x => negb (mem x d1)) l).
Proof.
  intros d1 d2 l H. induction l as [|v l IH]; [apply le_n|]. cbn [filter].
  destruct (mem v d1) eqn:E1, (mem v d2) eqn:E2; cbn [negb length]; try lia.
  apply mem_In in E1. apply mem_notIn in E2. specialize (H v E1). contradiction.
Qed.
Lemma left_over_le : forall d1 d2, incl d1 d2 -> left_over d2 <= left_over d1.
Proof. intros. apply remain_le. assumption. Qed.
Lemma remain_lt : forall d1 d2 t l, incl d1 d2 -> In t l -> ~ In t d1 -> In t d2 ->
  length (filter (fun x => negb (mem x d2)) l) < length (filter (fun x => negb (mem x d1)) l).
Proof.
  intros d1 d2 t l H Ht H1 H2. induction l as [|u l IH]; [destruct Ht|]. cbn [filter].
  destruct (Nat.eq_dec u t) as [->|Hne].
  - rewrite (proj2 (mem_notIn t d1) H1), (proj2 (mem_In t d2) H2). cbn [negb length].
    pose proof (remain_le d1 d2 l H). lia.
  - destruct Ht as [Ht|Ht]; [congruence|]. specialize (IH Ht).
    destruct (mem u d1) eqn:E1, (mem u d2) eqn:E2; cbn [negb length]; try lia.
    apply mem_In in E1. apply mem_notIn in E2. specialize (H u E1). contradiction.
Qed.
Lemma left_over_lt : forall d1 d2 t, incl d1 d2 -> In t U -> ~ In t d1 -> In t d2 -> left_over d2 < left_over d1.
Proof. intros. eapply remain_lt; eauto. Qed.

(** What a visit adds: [new], without repetition, each element linked from the start or from
    an earlier new element that is not a last token; everything linked is there at the end. *)
Definition good_new (srcs : list nat) (done new : list nat) : Prop :=
  NoDup new /\ (forall x, In x new -> ~ In x done) /\
  (forall l1 x l2, new = l1 ++ x :: l2 -> exists p, (In p srcs \/ In p l1) /\ ~ In p lasts /\ In x (nx p)) /\
  (forall x, In x new -> ~ In x lasts -> incl (nx x) (done ++ new)).

Lemma good_nil : forall srcs done, good_new srcs done [].
Proof.
  intros. split; [constructor|]. split; [intros x []|]. split; [|intros x []].
  intros l1 x l2 H. destruct l1; discriminate.
Qed.

Lemma good_app : forall srcs done n1 n2,
  good_new srcs done n1 -> good_new srcs (done ++ n1) n2 -> good_new srcs done (n1 ++ n2).
Proof.
  intros srcs done n1 n2 (A1 & A2 & A3 & A4) (B1 & B2 & B3 & B4). split; [|split; [|split]].
  - apply NoDup_app_intro; auto. intros x H1 H2. apply (B2 x H2). apply in_or_app. auto.
  - intros x Hx Hd. apply in_app_or in Hx. destruct Hx as [Hx|Hx]; [apply (A2 x Hx Hd)|].
    apply (B2 x Hx). apply in_or_app. auto.
  - intros l1 x l2 H. apply app_eq_app in H. destruct H as (l & [[-> Hl]|[-> Hl]]).
    + destruct l as [|y l]; simpl in Hl.
      * destruct (B3 [] x l2 (eq_sym Hl)) as (p & [Hp|[]] & H2). exists p. auto.
      * injection Hl as <- Hl. apply (A3 l1 x l eq_refl).
    + destruct (B3 l x l2 Hl) as (p & Hp & H2). exists p. split; [|exact H2].
      destruct Hp as [Hp|Hp]; [auto|]. right. apply in_or_app. auto.
  - intros x Hx Hl. rewrite app_assoc. apply in_app_or in Hx. destruct Hx as [Hx|Hx]; [|auto].
    intros y Hy. apply in_or_app. left. apply (A4 x Hx Hl y Hy).
Qed.

Lemma visit_spec : forall fuel start done,
  In start U -> incl done U -> In start done -> left_over done < fuel ->
  exists new, flat_visit nx lasts fuel start done = Ok (done ++ new) /\
    incl new U /\ good_new [start] done new /\
    (~ In start lasts -> incl (nx start) (done ++ new)).
Proof.
  induction fuel as [|fuel IH]; intros start done Hs Hd Hin Hf; [lia|].
  cbn [flat_visit]. destruct (mem start lasts) eqn:El.
  { exists []. rewrite app_nil_r. split; [reflexivity|]. split; [intros x []|].
    split; [apply good_nil|]. apply mem_In in El. tauto. }
  apply mem_notIn in El.
  assert (Hsub : incl (nx start) U) by (apply Hclosed; exact Hs).
  assert (G : forall l done0, incl l (nx start) -> incl done0 U -> incl done done0 ->
     exists new, (fix loop (l : list nat) (done : list nat) : res (list nat) :=
           match l with
           | [] => Ok done
           | t :: r => if mem t done then loop r done
                       else let* d := flat_visit nx lasts fuel t (done ++ [t]) in loop r d
           end) l done0 = Ok (done0 ++ new) /\ incl new U /\ good_new [start] done0 new /\
           incl l (done0 ++ new)).
  { induction l as [|t l IHl]; intros done0 Hl H0 Hdd.
    - exists []. rewrite app_nil_r. split; [reflexivity|]. split; [intros x []|]. split; [apply good_nil|intros x []].
    - assert (Ht : In t (nx start)) by (apply Hl; now left).
      assert (Hl' : incl l (nx start)) by (intros x Hx; apply Hl; now right).
      destruct (mem t done0) eqn:Em.
      + destruct (IHl done0 Hl' H0 Hdd) as (new & E & Hu & Hg & Hi). exists new.
        split; [exact E|]. split; [exact Hu|]. split; [exact Hg|].
        intros x [<-|Hx]; [|auto]. apply in_or_app. left. apply mem_In. exact Em.
      + apply mem_notIn in Em.
        assert (Hu1 : incl (done0 ++ [t]) U).
        { intros x Hx. apply in_app_or in Hx. destruct Hx as [Hx|[<-|[]]]; auto. }
        destruct (IH t (done0 ++ [t])) as (n1 & E1 & Hn1 & Hg1 & Hs1).
        { auto. }
        { exact Hu1. }
        { apply in_or_app. right. now left. }
        { assert (left_over (done0 ++ [t]) < left_over done0).
          { apply (left_over_lt _ _ t); auto; [intros x Hx; apply in_or_app; auto|].
            apply in_or_app. right. now left. }
          pose proof (left_over_le done done0 Hdd). lia. }
        rewrite E1. cbn [rbind].
        destruct (IHl ((done0 ++ [t]) ++ n1) Hl') as (n2 & E2 & Hn2 & Hg2 & Hi2).
        { intros x Hx. apply in_app_or in Hx. destruct Hx as [Hx|Hx]; auto. }
        { intros x Hx. apply in_or_app. left. apply in_or_app. left. apply Hdd. exact Hx. }
        exists (([t] ++ n1) ++ n2).
        assert (Ea : done0 ++ ([t] ++ n1) ++ n2 = ((done0 ++ [t]) ++ n1) ++ n2) by (rewrite !app_assoc; reflexivity).
        split; [rewrite Ea; exact E2|]. split.
        { intros x Hx. apply in_app_or in Hx. destruct Hx as [Hx|Hx]; [|auto].
          destruct Hx as [<-|Hx]; auto. }
        split.
        * apply good_app; [|rewrite app_assoc; exact Hg2].
          destruct Hg1 as (A1 & A2 & A3 & A4). split; [|split; [|split]].
          -- simpl. constructor; [|exact A1]. intros H. apply (A2 t H). apply in_or_app. right. now left.
          -- intros x [<-|Hx] Hd0; [contradiction|]. apply (A2 x Hx). apply in_or_app. auto.
          -- intros l1 x l2 H. destruct l1 as [|y l1]; simpl in H; injection H as E0 E3.
             ++ subst x. exists start. split; [left; now left|]. auto.
             ++ subst y. destruct (A3 l1 x l2 E3) as (p & [[<-|[]]|Hp] & H2).
                ** exists t. split; [right; now left|exact H2].
                ** exists p. split; [right; now right|exact H2].
          -- intros x [<-|Hx] Hxl; rewrite app_assoc; auto.
        * rewrite Ea. intros x [<-|Hx]; [|auto]. apply in_or_app. left. apply in_or_app. left. apply in_or_app. right. now left. }
  destruct (G (nx start) done) as (new & E & Hu & Hg & Hi); [apply incl_refl|exact Hd|apply incl_refl|].
  exists new. split; [exact E|]. split; [exact Hu|]. split; [exact Hg|]. intros _. exact Hi.
Qed.

Definition closed_done (done : list nat) : Prop :=
  forall x, In x done -> ~ In x lasts -> incl (nx x) done.

(** The order fact of the entry point: every element is a first token or comes after one of
    its predecessors. *)
Definition ordered (firsts done : list nat) : Prop :=
  forall l1 x l2, done = l1 ++ x :: l2 -> In x firsts \/ exists p, In p l1 /\ ~ In p lasts /\ In x (nx p).

Lemma firsts_spec : forall fuel firsts done all,
  incl firsts U -> incl done U -> length U < fuel -> incl firsts all ->
  closed_done done -> ordered all done ->
  exists res, flat_firsts nx lasts fuel firsts done = Ok res /\ incl res U /\ closed_done res /\
    incl firsts res /\ incl done res /\ ordered all res /\
    (forall x, In x res -> In x done \/ exists f, In f firsts /\ reach nx lasts f x) /\
    (NoDup done -> NoDup firsts -> (forall f, In f firsts -> ~ In f done) ->
     (forall f f', In f firsts -> In f' firsts -> reach nx lasts f f' -> f = f') -> NoDup res).
Proof.
  intros fuel. induction firsts as [|t r IH]; intros done all Hf Hd Hfuel Hall Hc Ho.
  - exists done. cbn [flat_firsts]. split; [reflexivity|]. split; [exact Hd|]. split; [exact Hc|].
    split; [intros x []|]. split; [apply incl_refl|]. split; [exact Ho|]. split; [auto|auto].
  - cbn [flat_firsts].
    assert (Hu1 : incl (done ++ [t]) U).
    { intros x Hx. apply in_app_or in Hx. destruct Hx as [Hx|[<-|[]]]; auto. apply Hf. now left. }
    destruct (visit_spec fuel t (done ++ [t])) as (new & E & Hn & Hg & Hs).
    { apply Hf. now left. }
    { exact Hu1. }
    { apply in_or_app. right. now left. }
    { unfold left_over. eapply Nat.le_lt_trans; [|exact Hfuel]. clear. induction U as [|u l IHl]; simpl; [lia|].
      destruct (negb (mem u (done ++ [t]))); simpl; lia. }
    rewrite E. cbn [rbind]. destruct Hg as (A1 & A2 & A3 & A4).
    assert (Hc' : closed_done ((done ++ [t]) ++ new)).
    { intros x Hx Hxl. apply in_app_or in Hx. destruct Hx as [Hx|Hx]; [|apply A4; assumption].
      apply in_app_or in Hx. destruct Hx as [Hx|[<-|[]]]; [|apply Hs; exact Hxl].
      intros y Hy. apply in_or_app. left. apply in_or_app. left. apply (Hc x Hx Hxl y Hy). }
    assert (Ho' : ordered all ((done ++ [t]) ++ new)).
    { intros l1 x l2 H. apply app_eq_app in H. destruct H as (l & [[Hl1 Hl]|[-> Hl]]).
      - destruct l as [|y l]; simpl in Hl.
        + destruct (A3 [] x l2 (eq_sym Hl)) as (p & [[<-|[]]|[]] & H2). right. exists t.
          split; [|exact H2]. rewrite app_nil_r in Hl1. rewrite <- Hl1. apply in_or_app. right. now left.
        + injection Hl as <- Hl. apply app_eq_app in Hl1. destruct Hl1 as (m & [[Hm1 Hm]|[Hm1 Hm]]).
          * destruct m as [|z m]; simpl in Hm.
            -- injection Hm as <- Hm. left. apply Hall. now left.
            -- injection Hm as <- Hm. apply (Ho l1 x m Hm1).
          * destruct m as [|z m]; simpl in Hm; [injection Hm as <- _; left; apply Hall; now left|].
            injection Hm as _ Hm. destruct m; discriminate.
      - destruct (A3 l x l2 Hl) as (p & Hp & H2). right. exists p. split; [|exact H2].
        destruct Hp as [[<-|[]]|Hp]; apply in_or_app; [left; apply in_or_app; right; now left|auto]. }
    assert (Hrn : forall x, In x new -> reach nx lasts t x).
    { assert (G : forall n l1 l2, new = l1 ++ l2 -> length l1 <= n -> forall x, In x l1 -> reach nx lasts t x).
      { induction n as [|n IHn]; intros l1 l2 Hl Hlen x Hx; [destruct l1; [destruct Hx|simpl in Hlen; lia]|].
        apply in_split in Hx. destruct Hx as (a & b & ->).
        assert (Hl0 : new = a ++ x :: (b ++ l2)) by (rewrite Hl, <- app_assoc; reflexivity).
        destruct (A3 a x (b ++ l2) Hl0) as (p & Hp & Hpl & Hpx).
        apply reach_step with p; [|exact Hpl|exact Hpx].
        destruct Hp as [[<-|[]]|Hp]; [constructor|].
        apply (IHn a (x :: b ++ l2)); auto. rewrite app_length in Hlen. simpl in Hlen. lia. }
      intros x Hx. apply (G (length new) new []); auto. rewrite app_nil_r. reflexivity. }
    destruct (IH ((done ++ [t]) ++ new) all) as (res & E2 & B1 & B2 & B3 & B4 & B5 & B6 & B7).
    { intros x Hx. apply Hf. now right. }
    { intros x Hx. apply in_app_or in Hx. destruct Hx; auto. }
    { exact Hfuel. }
    { intros x Hx. apply Hall. now right. }
    { exact Hc'. }
    { exact Ho'. }
    exists res. split; [exact E2|]. split; [exact B1|]. split; [exact B2|].
    assert (Hin : incl (done ++ [t]) res).
    { intros x Hx. apply B4. apply in_or_app. auto. }
    split; [intros x [<-|Hx]; [apply Hin; apply in_or_app; right; now left|auto]|].
    split; [intros x Hx; apply Hin; apply in_or_app; auto|]. split; [exact B5|]. split.
    + intros x Hx. destruct (B6 x Hx) as [Hx'|(f & Hf' & Hr)].
      * apply in_app_or in Hx'. destruct Hx' as [Hx'|Hx'].
        -- apply in_app_or in Hx'. destruct Hx' as [Hx'|[<-|[]]]; [auto|].
           right. exists t. split; [now left|constructor].
        -- right. exists t. split; [now left|auto].
      * right. exists f. split; [now right|exact Hr].
    + intros Nd Nf Hnot Hinj. inversion Nf as [|? ? Ht Nr]; subst. apply B7.
      * apply NoDup_app_intro.
        -- apply NoDup_app_intro; [exact Nd|repeat constructor; intros []|].
           intros x Hx [<-|[]]. apply (Hnot t); [now left|exact Hx].
        -- exact A1.
        -- intros x H1 H2. apply (A2 x H2 H1).
      * exact Nr.
      * intros f Hf' Hx. apply in_app_or in Hx. destruct Hx as [Hx|Hx].
        -- apply in_app_or in Hx. destruct Hx as [Hx|[<-|[]]]; [|contradiction].
           apply (Hnot f); [now right|exact Hx].
        -- apply Hrn in Hx. assert (t = f) by (apply Hinj; [now left|now right|exact Hx]). subst. contradiction.
      * intros f f' H1 H2. apply Hinj; now right.
Qed.

End Flat.

Lemma flatten_spec : forall nx s U fuel, closed nx U -> incl (sg_first s) U -> length U < fuel ->
  exists l, flatten nx fuel s = Ok l /\ (forall t, In t l <-> seg_token nx s t) /\
    ordered nx (sg_last s) (sg_first s) l /\
    (NoDup (sg_first s) ->
     (forall f f', In f (sg_first s) -> In f' (sg_first s) -> reach nx (sg_last s) f f' -> f = f') -> NoDup l).
Proof.
  intros nx s U fuel Hc Hf Hl.
  destruct (firsts_spec nx (sg_last s) U Hc fuel (sg_first s) [] (sg_first s)) as (l & E & A1 & A2 & A3 & A4 & A5 & A6 & A7);
    auto.
  { intros x []. } { apply incl_refl. } { intros x []. }
  { intros l1 x l2 H. destruct l1; discriminate. }
  exists l. split; [exact E|]. split; [|split; [exact A5|]].
  - intros t. split.
    + intros Ht. destruct (A6 t Ht) as [[]|H]. exact H.
    + intros (f & Hff & Hr). induction Hr as [|b c Hr IH Hb Hbc]; [auto|]. apply (A2 b IH Hb c Hbc).
  - intros Nf Hi. apply A7; auto. constructor.
Qed.

Lemma flatten_chain : forall nx a l fuel,
  NoDup (a :: l) -> chain nx a l -> length l < fuel ->
  flatten nx fuel {| sg_first := [a]; sg_last := [List.last l a]; sg_begin := 0; sg_end := 0 |} = Ok (a :: l).
Proof.
  intros nx a l fuel Hnd Hch Hfuel. unfold flatten. cbn [sg_first sg_last flat_firsts].
  assert (G : forall l a pre fuel, NoDup (pre ++ a :: l) -> chain nx a l -> length l < fuel ->
    flat_visit nx [List.last l a] fuel a (pre ++ [a]) = Ok (pre ++ a :: l)).
  { clear. induction l as [|b l IH]; intros a pre fuel Hnd Hch Hf; (destruct fuel as [|fuel]; [simpl in Hf; lia|]).
    - cbn [flat_visit List.last]. rewrite (proj2 (mem_In a [a])) by now left. reflexivity.
    - cbn [flat_visit]. destruct Hch as [Hn Hch].
      assert (Hlast : List.last (b :: l) a = List.last l b).
      { clear. revert b. induction l as [|c l IH]; intros b; [reflexivity|]. cbn [List.last] in IH |- *.
        destruct l; [reflexivity|apply (IH b)]. }
      rewrite Hlast.
      assert (Hin : In (List.last l b) (b :: l)).
      { clear. revert b. induction l as [|c l IH]; intros b; [now left|].
        destruct l as [|d l]; [right; now left|].
        destruct (IH b) as [E|H]; [left; exact E|right; right; exact H]. }
      pose proof (NoDup_remove_2 _ _ _ Hnd) as Hna.
      assert (Hneq : ~ In a [List.last l b]).
      { intros [E|[]]. apply Hna. apply in_or_app. right. rewrite <- E. exact Hin. }
      rewrite (proj2 (mem_notIn _ _) Hneq). rewrite Hn.
      assert (Hnb : ~ In b (pre ++ [a])).
      { replace (pre ++ a :: b :: l) with ((pre ++ [a]) ++ b :: l) in Hnd by (rewrite <- app_assoc; reflexivity).
        pose proof (NoDup_remove_2 _ _ _ Hnd) as H. intros Hb. apply H. apply in_or_app. auto. }
      rewrite (proj2 (mem_notIn _ _) Hnb).
      rewrite IH; [|rewrite <- app_assoc; exact Hnd|exact Hch|simpl in Hf; lia].
      cbn [rbind]. rewrite <- app_assoc. reflexivity. }
  specialize (G l a [] fuel Hnd Hch Hfuel). cbn [app] in G |- *. rewrite G. reflexivity.
Qed.

Lemma flatten_all_spec : forall nx U fuel segs, closed nx U -> (forall s, In s segs -> incl (sg_first s) U) ->
  length U < fuel ->
  exists l, flatten_all nx fuel segs = Ok l /\ forall t, In t l <-> speech_token nx segs t.
Proof.
  intros nx U fuel segs Hc. induction segs as [|s r IH]; intros Hf Hl.
  - exists []. split; [reflexivity|]. intros t. split; [intros []|]. intros (s & [] & _).
  - destruct (flatten_spec nx s U fuel Hc (Hf s (or_introl eq_refl)) Hl) as (l1 & E1 & H1 & _).
    destruct IH as (l2 & E2 & H2); [intros; apply Hf; now right|exact Hl|].
    exists (l1 ++ l2). cbn [flatten_all]. rewrite E1. cbn [rbind]. rewrite E2. split; [reflexivity|].
    intros t. rewrite in_app_iff, H1, H2. split.
    + intros [H|(s' & Hs & H)]; [exists s; split; [now left|exact H]|exists s'; split; [now right|exact H]].
    + intros (s' & [<-|Hs] & H); [auto|]. right. exists s'. auto.
Qed.

Lemma first_nonempty_spec : forall segs s, first_nonempty segs = Some s ->
  In s segs /\ (seg_empty s = true -> forall x, In x segs -> seg_empty x = true).
Proof.
  induction segs as [|a r IH]; intros s H; [discriminate|]. cbn [first_nonempty] in H.
  destruct r as [|b r].
  - injection H as <-. split; [now left|]. intros He x [<-|[]]. exact He.
  - destruct (seg_empty a) eqn:Ea.
    + destruct (IH s H) as [H1 H2]. split; [now right|]. intros He x [<-|Hx]; auto.
    + injection H as <-. split; [now left|]. congruence.
Qed.
Lemma first_nonempty_some : forall segs, segs <> [] -> exists s, first_nonempty segs = Some s.
Proof.
  induction segs as [|a r IH]; intros H; [congruence|]. cbn [first_nonempty].
  destruct r as [|b r]; [eauto|]. destruct (seg_empty a); [apply IH; discriminate|eauto].
Qed.

Lemma empty_no_token : forall nx s t, sg_first s = [] -> ~ seg_token nx s t.
Proof. intros nx s t H (f & Hf & _). rewrite H in Hf. destruct Hf. Qed.

Lemma reach_pred : forall nx lasts a c, reach nx lasts a c -> c = a \/ exists b, reach nx lasts a b /\ ~ In b lasts /\ In c (nx b).
Proof. intros nx lasts a c H. inversion H; subst; eauto. Qed.

Lemma reach_rank : forall h lasts a c rank, mutual h -> (forall t p, In p (prc h t) -> rank p < rank t) ->
  reach (nxt h) lasts a c -> rank a <= rank c.
Proof.
  intros h lasts a c rank Hm Hr H. induction H as [|b c H IH Hb Hc]; [lia|].
  assert (rank b < rank c); [|lia]. apply Hr. apply prec_edge; auto.
Qed.

(** What the later segments guarantee, once some segment has been read. *)
Lemma linked_later : forall h rank, mutual h -> (forall t p, In p (prc h t) -> rank p < rank t) ->
  forall segs ls, linked_speech h (Some ls) segs ->
  forall t, speech_token (nxt h) segs t ->
    prc h t <> [] /\
    (forall p, In p (prc h t) -> In p ls \/ speech_token (nxt h) segs p) /\
    (exists p, In p ls /\ rank p < rank t).
Proof.
  intros h rank Hm Hrk. induction segs as [|s r IH]; intros ls H t (s0 & Hs0 & Ht); [destruct Hs0|].
  cbn [linked_speech] in H. destruct (seg_empty s) eqn:Ee.
  - destruct H as [He H]. destruct Hs0 as [<-|Hs0]; [destruct (empty_no_token _ _ _ He Ht)|].
    destruct (IH ls H t) as (A & B & C); [exists s0; auto|]. split; [exact A|]. split; [|exact C].
    intros p Hp. destruct (B p Hp) as [Hl|(s' & Hs' & Hp')]; [auto|]. right. exists s'. split; [now right|exact Hp'].
  - destruct H as (H1 & (H2 & H3) & H4 & H5 & H6).
    assert (Hfirst : forall f, In f (sg_first s) -> exists p, In p ls /\ In p (prc h f)).
    { intros f Hf. destruct ls as [|p ls]; [congruence|]. exists p. split; [now left|].
      apply prec_edge; [exact Hm|]. apply H3; [exact Hf|now left]. }
    assert (Hseg : forall t, seg_token (nxt h) s t -> exists p, In p ls /\ rank p < rank t).
    { intros x (f & Hf & Hr). destruct (Hfirst f Hf) as (p & Hp & Hpf). exists p. split; [exact Hp|].
      pose proof (reach_rank _ _ _ _ rank Hm Hrk Hr). pose proof (Hrk _ _ Hpf). lia. }
    destruct Hs0 as [<-|Hs0].
    + split; [|split].
      * destruct Ht as (f & Hf & Hr). destruct (reach_pred _ _ _ _ Hr) as [->|(b & _ & _ & Hb)].
        -- destruct (Hfirst f Hf) as (p & _ & Hpf). intros E. rewrite E in Hpf. destruct Hpf.
        -- intros E. apply (prec_edge h b t Hm) in Hb. rewrite E in Hb. destruct Hb.
      * intros p Hp. destruct (H1 t p Ht Hp) as [[Hp' _]|[_ Hp']]; [|auto].
        right. exists s. split; [now left|exact Hp'].
      * apply Hseg. exact Ht.
    + destruct (IH (sg_last s) H6 t) as (A & B & p & Hp & Hpt); [exists s0; auto|].
      split; [exact A|]. split.
      * intros q Hq. right. destruct (B q Hq) as [Hl|(s' & Hs' & Hp')].
        -- exists s. split; [now left|apply H5; exact Hl].
        -- exists s'. split; [now right|exact Hp'].
      * destruct (Hseg p (H5 p Hp)) as (q & Hq & Hlt). exists q. split; [exact Hq|lia].
Qed.

Lemma linked_first : forall h rank, mutual h -> (forall t p, In p (prc h t) -> rank p < rank t) ->
  forall segs sf, linked_speech h None segs -> first_nonempty segs = Some sf ->
  forall t, speech_token (nxt h) segs t ->
    (exists f, In f (sg_first sf) /\ rank f <= rank t) /\
    (~ In t (sg_first sf) -> prc h t <> [] /\ forall p, In p (prc h t) -> speech_token (nxt h) segs p).
Proof.
  intros h rank Hm Hrk. induction segs as [|s r IH]; intros sf H Hsf t (s0 & Hs0 & Ht); [destruct Hs0|].
  cbn [linked_speech] in H. cbn [first_nonempty] in Hsf. destruct (seg_empty s) eqn:Ee.
  - destruct H as [He H]. destruct Hs0 as [<-|Hs0]; [destruct (empty_no_token _ _ _ He Ht)|].
    destruct r as [|s1 r]; [destruct Hs0|].
    destruct (IH sf H Hsf t) as (A & B); [exists s0; auto|]. split; [exact A|]. intros Hn.
    destruct (B Hn) as (B1 & B2). split; [exact B1|]. intros p Hp. destruct (B2 p Hp) as (s' & Hs' & Hp').
    exists s'. split; [now right|exact Hp'].
  - assert (sf = s) by (destruct r; congruence). subst sf.
    destruct H as (H1 & _ & H4 & H5 & H6).
    assert (Hseg : forall x, seg_token (nxt h) s x -> exists f, In f (sg_first s) /\ rank f <= rank x).
    { intros x (f & Hf & Hr). exists f. split; [exact Hf|]. apply (reach_rank h (sg_last s)); auto. }
    destruct Hs0 as [<-|Hs0].
    + split; [apply Hseg; exact Ht|]. intros Hn. split.
      * destruct Ht as (f & Hf & Hr). destruct (reach_pred _ _ _ _ Hr) as [->|(b & _ & _ & Hb)]; [contradiction|].
        intros E. apply (prec_edge h b t Hm) in Hb. rewrite E in Hb. destruct Hb.
      * intros p Hp. destruct (H1 t p Ht Hp) as [[Hp' _]|[Hp' _]]; [|contradiction].
        exists s. split; [now left|exact Hp'].
    + destruct (linked_later h rank Hm Hrk r (sg_last s) H6 t) as (A & B & p & Hp & Hpt); [exists s0; auto|].
      split.
      * destruct (Hseg p (H5 p Hp)) as (f & Hf & Hlt). exists f. split; [exact Hf|lia].
      * intros _. split; [exact A|]. intros q Hq. destruct (B q Hq) as [Hl|(s' & Hs' & Hp')].
        -- exists s. split; [now left|apply H5; exact Hl].
        -- exists s'. split; [now right|exact Hp'].
Qed.

Lemma build_wf : forall h rank U fuel segs e,
  mutual h -> (forall t p, In p (prc h t) -> rank p < rank t) ->
  closed (nxt h) U -> (forall s, In s segs -> incl (sg_first s) U) -> length U < fuel ->
  linked_speech h None segs -> (forall t, te_prec e t = prc h t) ->
  exists d, build_dimension (nxt h) fuel segs = Ok d /\
    (forall t, In t (d_toks d) <-> speech_token (nxt h) segs t) /\ wf_dim e d /\
    (forall sf t, first_nonempty segs = Some sf -> (In t (d_first d) <-> In t (sg_first sf))) /\
    (forall sl t, last_nonempty segs = Some sl -> (In t (d_last d) <-> In t (sg_last sl) /\ In t (d_toks d))).
Proof.
  intros h rank U fuel segs e Hm Hrk Hc Hf Hfu Hl He.
  destruct (flatten_all_spec (nxt h) U fuel segs Hc Hf Hfu) as (l & E & Hin).
  unfold build_dimension. rewrite E. cbn [rbind].
  destruct segs as [|s0 r] eqn:Es.
  { cbn [flatten_all] in E. injection E as <-. cbn [first_nonempty].
    eexists. split; [reflexivity|]. cbn [d_toks d_first d_last]. split; [exact Hin|].
    split; [|split; intros; discriminate].
    split; [intros t []|]. split; [intros t []|]. split; [intros H; destruct (H eq_refl)|]. split; [intros t p []|intros t []]. }
  rewrite <- Es in *.
  destruct (first_nonempty_some segs) as (sf & Ef); [rewrite Es; discriminate|].
  destruct (first_nonempty_some (rev segs)) as (sl & El).
  { rewrite Es. intros H. apply (f_equal (@length segment)) in H. rewrite rev_length in H. discriminate. }
  unfold last_nonempty. rewrite Ef, El.
  eexists. split; [reflexivity|]. cbn [d_toks d_first d_last].
  assert (F1 : forall t, In t (rev (filter (is_first_token sf) l)) <-> In t (sg_first sf)).
  { intros t. rewrite <- in_rev, filter_In, Hin. unfold is_first_token. rewrite mem_In. split; [tauto|].
    intros Ht. split; [|exact Ht]. exists sf. split; [apply (first_nonempty_spec segs sf Ef)|].
    exists t. split; [exact Ht|constructor]. }
  split; [exact Hin|]. split; [|split].
  - split; [|split; [|split; [|split]]]; cbn [d_toks d_first d_last].
    + intros t Ht. apply in_rev in Ht. apply filter_In in Ht. tauto.
    + intros t Ht. apply in_rev in Ht. apply filter_In in Ht. tauto.
    + intros Hne. destruct l as [|x l]; [congruence|].
      destruct (linked_first h rank Hm Hrk segs sf Hl Ef x) as ((f & Hff & _) & _); [apply Hin; now left|].
      intros E0. apply F1 in Hff. rewrite E0 in Hff. destruct Hff.
    + intros t p Ht Hp Hpl. rewrite He in Hp. apply Hin in Hpl.
      destruct (linked_first h rank Hm Hrk segs sf Hl Ef p Hpl) as ((f & Hff & Hle) & _).
      exists f. split; [apply F1; exact Hff|]. intros ->. pose proof (Hrk _ _ Hp). lia.
    + intros t Ht Hn. rewrite He. apply Hin in Ht.
      destruct (linked_first h rank Hm Hrk segs sf Hl Ef t Ht) as (_ & H).
      destruct H as [H1 H2]; [intros H; apply Hn; apply F1; exact H|].
      split; [exact H1|]. intros p Hp. apply Hin. apply H2. exact Hp.
  - intros sf' t Hsf'. injection Hsf' as <-. apply F1.
  - intros sl' t Hsl'. injection Hsl' as <-. rewrite <- in_rev, filter_In. unfold is_last_token. rewrite mem_In. tauto.
Qed.

(** ** Removing a segment *)
Lemma unhook_prevs_spec : forall p f ps h acc, (forall q, In q ps -> q = p) -> nc h p f = length ps ->
  exists h', unhook_prevs h f ps acc = Ok (h', acc ++ ps) /\ prc h' = prc h /\
    (forall x, x <> p -> nxt h' x = nxt h x) /\
    (forall y, y <> f -> nc h' p y = nc h p y) /\ nc h' p f = 0.
Proof.
  intros p f. induction ps as [|q ps IH]; intros h acc Hq Hc.
  - exists h. rewrite app_nil_r. cbn [unhook_prevs]. repeat split; auto.
  - assert (q = p) by (apply Hq; now left). subst q. cbn [unhook_prevs]. unfold unlink_next.
    destruct (erase_some f (nxt h p)) as (l & E).
    { apply (count_occ_In Nat.eq_dec). unfold nc in Hc. simpl in Hc. lia. }
    rewrite E. cbn [rbind]. set (h1 := {| nxt := upd (nxt h) p l; prc := prc h |}).
    assert (Hn : forall y, nc h p y = nc h1 p y + (if Nat.eqb f y then 1 else 0)).
    { intros y. unfold nc, h1. cbn [nxt]. rewrite upd_same. apply erase_cnt. exact E. }
    destruct (IH h1 (acc ++ [p])) as (h' & E' & A1 & A2 & A3 & A4).
    { intros q Hq'. apply Hq. now right. }
    { specialize (Hn f). rewrite Nat.eqb_refl in Hn. simpl in Hc. lia. }
    exists h'. rewrite E', <- app_assoc. split; [reflexivity|]. split; [exact A1|]. split; [|split; [|exact A4]].
    + intros x Hx. rewrite A2 by exact Hx. unfold h1. cbn [nxt]. apply upd_other. exact Hx.
    + intros y Hy. rewrite A3 by exact Hy. specialize (Hn y). destruct (Nat.eqb_spec f y); [congruence|lia].
Qed.

Lemma unhook_firsts_spec : forall p fs h acc, NoDup fs ->
  (forall f q, In f fs -> In q (prc h f) -> q = p) -> (forall f, In f fs -> nc h p f = pc h p f) ->
  exists h' new, unhook_firsts h fs acc = Ok (h', acc ++ new) /\ prc h' = prc h /\
    (forall x, x <> p -> nxt h' x = nxt h x) /\
    (forall y, nc h' p y = if mem y fs then 0 else nc h p y) /\
    (forall q, In q new -> q = p) /\ (forall f, In f fs -> In p (prc h f) -> new <> []).
Proof.
  intros p. induction fs as [|f fs IH]; intros h acc Hnd Hq Hc.
  - exists h, []. rewrite app_nil_r. cbn [unhook_firsts]. split; [reflexivity|]. repeat split; auto; intros ? [].
  - inversion Hnd as [|? ? Hf Hnd']; subst. cbn [unhook_firsts].
    assert (Hq0 : forall q, In q (prc h f) -> q = p) by (intros q; apply Hq; now left).
    assert (Hlen : pc h p f = length (prc h f)).
    { unfold pc. clear - Hq0. induction (prc h f) as [|a l IHl]; [reflexivity|]. simpl.
      destruct (Nat.eq_dec a p) as [_|Hn]; [rewrite IHl; auto; intros q Hin; apply Hq0; now right|].
      exfalso. apply Hn. apply Hq0. now left. }
    destruct (unhook_prevs_spec p f (prc h f) h acc Hq0) as (h1 & E1 & A1 & A2 & A3 & A4).
    { rewrite Hc by (now left). exact Hlen. }
    rewrite E1. cbn [rbind].
    destruct (IH h1 (acc ++ prc h f) Hnd') as (h' & new & E' & B1 & B2 & B3 & B4 & B5).
    { intros g q Hg. rewrite A1. apply Hq. now right. }
    { intros g Hg. unfold pc. rewrite A1. rewrite A3 by (intros ->; contradiction). apply Hc. now right. }
    exists h', (prc h f ++ new). rewrite E', app_assoc. split; [reflexivity|]. split; [congruence|].
    split; [intros x Hx; rewrite B2, A2 by exact Hx; reflexivity|]. split; [|split].
    + intros y. rewrite B3. cbn [mem]. destruct (Nat.eqb_spec f y) as [<-|Hn].
      * destruct (mem f fs); [reflexivity|exact A4].
      * destruct (mem y fs); [reflexivity|]. apply A3. congruence.
    + intros q H. apply in_app_or in H. destruct H; auto.
    + intros g [<-|Hg] Hp.
      * intros E. apply app_eq_nil in E. rewrite (proj1 E) in Hp. destruct Hp.
      * intros E. apply app_eq_nil in E. rewrite A1 in B5. apply (B5 g Hg Hp). tauto.
Qed.

Lemma unhook_nexts_spec : forall l ns h acc, (forall n, pc h l n = cnt ns n) ->
  exists h', unhook_nexts h l ns acc = Ok (h', acc ++ ns) /\ nxt h' = nxt h /\
    (forall x y, pc h' x y = if Nat.eqb x l then 0 else pc h x y).
Proof.
  intros l. induction ns as [|n ns IH]; intros h acc Hc.
  - exists h. rewrite app_nil_r. split; [reflexivity|]. split; [reflexivity|]. intros x y.
    destruct (Nat.eqb_spec x l) as [->|]; [|reflexivity]. rewrite Hc. reflexivity.
  - cbn [unhook_nexts]. unfold unlink_prev.
    assert (Hn : 0 < pc h l n) by (rewrite Hc; simpl; destruct (Nat.eq_dec n n); [lia|congruence]).
    destruct (erase_some l (prc h n)) as (r & E).
    { apply (count_occ_In Nat.eq_dec). exact Hn. }
    rewrite E. cbn [rbind]. set (h1 := {| nxt := nxt h; prc := upd (prc h) n r |}).
    assert (Hp : forall x y, pc h x y = pc h1 x y + is l n x y).
    { intros x y. unfold pc, h1, is. cbn [prc]. unfold upd. rewrite (Nat.eqb_sym y n).
      destruct (Nat.eqb_spec n y) as [<-|]; [|rewrite andb_false_r; lia].
      rewrite andb_true_r. apply erase_cnt. exact E. }
    destruct (IH h1 (acc ++ [n])) as (h' & E' & A1 & A2).
    { intros m. specialize (Hp l m). rewrite Hc in Hp. unfold is in Hp. rewrite Nat.eqb_refl in Hp.
      simpl in Hp. destruct (Nat.eq_dec n m), (Nat.eqb_spec n m); try congruence; lia. }
    exists h'. rewrite E', <- app_assoc. split; [reflexivity|]. split; [exact A1|].
    intros x y. rewrite A2. specialize (Hp x y). unfold is in Hp. destruct (Nat.eqb_spec x l) as [|Hx]; [reflexivity|].
    destruct (Nat.eqb_spec l x); [congruence|]. simpl in Hp. lia.
Qed.

Lemma unhook_lasts_spec : forall ls h acc, NoDup ls -> (forall l n, In l ls -> pc h l n = nc h l n) ->
  exists h', unhook_lasts h ls acc = Ok (h', acc ++ flat_map (nxt h) ls) /\ nxt h' = nxt h /\
    (forall x y, pc h' x y = if mem x ls then 0 else pc h x y).
Proof.
  induction ls as [|l ls IH]; intros h acc Hnd Hc.
  - exists h. simpl. rewrite app_nil_r. auto.
  - inversion Hnd as [|? ? Hl Hnd']; subst. cbn [unhook_lasts].
    destruct (unhook_nexts_spec l (nxt h l) h acc) as (h1 & E1 & A1 & A2).
    { intros n. apply Hc. now left. }
    rewrite E1. cbn [rbind].
    destruct (IH h1 (acc ++ nxt h l) Hnd') as (h' & E' & B1 & B2).
    { intros m n Hm. rewrite A2. unfold nc. rewrite A1.
      destruct (Nat.eqb_spec m l) as [->|]; [contradiction|]. apply Hc. now right. }
    exists h'. rewrite E', A1. cbn [flat_map]. rewrite <- app_assoc. split; [reflexivity|]. split; [congruence|].
    intros x y. rewrite B2, A2. cbn [mem]. rewrite (Nat.eqb_sym l x). destruct (Nat.eqb x l), (mem x ls); reflexivity.
Qed.

Lemma fold_link2 : forall p ns h, 
  let h' := fold_left (fun h n => add_prec (add_next h p n) n p) ns h in
  (forall x y, nc h' x y = nc h x y + (if Nat.eqb x p then cnt ns y else 0)) /\
  (forall x y, pc h' x y = pc h x y + (if Nat.eqb x p then cnt ns y else 0)).
Proof.
  intros p. induction ns as [|n ns IH]; intros h; cbn [fold_left].
  - cbn zeta. split; intros x y; simpl; destruct (Nat.eqb x p); lia.
  - destruct (IH (add_prec (add_next h p n) n p)) as [A B]. cbn zeta. split; intros x y.
    + rewrite A, nc_link2. unfold is. rewrite (Nat.eqb_sym p x). simpl.
      destruct (Nat.eqb x p), (Nat.eq_dec n y), (Nat.eqb_spec n y); simpl; try congruence; lia.
    + rewrite B, pc_link2. unfold is. rewrite (Nat.eqb_sym p x). simpl.
      destruct (Nat.eqb x p), (Nat.eq_dec n y), (Nat.eqb_spec n y); simpl; try congruence; lia.
Qed.

Lemma remove_spec : forall h s p, mutual h -> NoDup (sg_first s) -> NoDup (sg_last s) ->
  (forall f q, In f (sg_first s) -> In q (prc h f) -> q = p) ->
  (exists f, In f (sg_first s) /\ In p (prc h f)) -> ~ In p (sg_last s) ->
  exists h', remove_segment h s = Ok h' /\
    (forall x y, edge h' x y <->
       (edge h x y /\ ~ (x = p /\ In y (sg_first s))) \/ (x = p /\ exists l, In l (sg_last s) /\ edge h l y)) /\
    (forall x y, In x (prc h' y) <->
       (edge h x y /\ ~ In x (sg_last s)) \/ (x = p /\ exists l, In l (sg_last s) /\ edge h l y)).
Proof.
  intros h s p Hm Nf Nl Hq (f & Hf & Hpf) Hpl. unfold remove_segment.
  destruct (unhook_firsts_spec p (sg_first s) h [] Nf Hq) as (h1 & new & E1 & A1 & A2 & A3 & A4 & A5).
  { intros g Hg. apply Hm. }
  rewrite E1. cbn [rbind app].
  destruct (unhook_lasts_spec (sg_last s) h1 [] Nl) as (h2 & E2 & B1 & B2).
  { intros l n Hl. unfold pc, nc. rewrite A1, A2 by (intros ->; contradiction). symmetry. apply Hm. }
  rewrite E2. cbn [rbind app].
  assert (Hnew : exists r, new = p :: r).
  { destruct new as [|q r]; [destruct (A5 f Hf Hpf eq_refl)|]. rewrite (A4 q (or_introl eq_refl)). eauto. }
  destruct Hnew as (r & ->). cbn [reattach]. eexists. split; [reflexivity|].
  set (ns := flat_map (nxt h1) (sg_last s)). destruct (fold_link2 p ns h2) as [C1 C2].
  set (h3 := fold_left _ ns h2) in *. cbn zeta in C1, C2.
  assert (Hns : forall y, In y ns <-> exists l, In l (sg_last s) /\ edge h l y).
  { intros y. unfold ns. rewrite in_flat_map. split; intros (l & Hl & Hy); exists l; (split; [exact Hl|]);
      [rewrite A2 in Hy by (intros ->; contradiction); exact Hy|rewrite A2 by (intros ->; contradiction); exact Hy]. }
  split; intros x y.
  - unfold edge at 1. rewrite <- Hns. rewrite (count_occ_In Nat.eq_dec). change (cnt (nxt h3 x) y) with (nc h3 x y). rewrite C1.
    assert (Hx : nc h2 x y = if Nat.eqb x p && mem y (sg_first s) then 0 else nc h x y).
    { unfold nc at 1. rewrite B1. destruct (Nat.eqb_spec x p) as [->|Hx].
      - change (cnt (nxt h1 p) y) with (nc h1 p y). rewrite A3. reflexivity.
      - rewrite A2 by exact Hx. reflexivity. }
    rewrite Hx. unfold edge at 1. rewrite (count_occ_In Nat.eq_dec (nxt h x) y), (count_occ_In Nat.eq_dec ns y), <- mem_In. unfold nc.
    destruct (Nat.eqb_spec x p), (mem y (sg_first s)); cbn [andb]; intuition (try lia; try congruence).
  - rewrite (count_occ_In Nat.eq_dec). change (cnt (prc h3 y) x) with (pc h3 x y). rewrite C2, B2.
    assert (Hx : pc h1 x y = nc h x y) by (unfold pc; rewrite A1; symmetry; apply Hm).
    rewrite Hx, <- Hns. unfold edge. rewrite (count_occ_In Nat.eq_dec (nxt h x) y), (count_occ_In Nat.eq_dec ns y), <- mem_In. unfold nc.
    destruct (Nat.eqb_spec x p), (mem x (sg_last s)); cbn [andb]; intuition (try lia; try congruence).
Qed.
