(** Alignments of the networks of two texts are alignments of their readings. *)
From Coq Require Import List NArith ZArith Arith Bool Lia.
From Verif Require Import Base Net_Model Net_Spec NetDp_Model NetDp_Spec Text_Model Text_Spec Text_Proofs1 Text_Proofs4 Word_Model Word_Spec Word_Proofs Word_Thm Anet_Model Anet_Spec Anet_Proofs4.
Import ListNotations.

(** the words of a reading *)
Definition fresh (w : word) : Prop := w_opt_del w = false /\ w_frag w = false.
Lemma stands_fresh e tok w : stands_for e tok w -> fresh w.
Proof. intros (p & _ & ->). split; reflexivity. Qed.
Lemma reads_fresh e cs r : reads e cs r -> Forall fresh r.
Proof.
  induction 1; [constructor|constructor; [eapply stands_fresh; eassumption|assumption]|apply Forall_app; auto].
Qed.

Section Two.
Variable G : net word.
Variable R : list word -> Prop.
Hypothesis WF : wf_net G.
Hypothesis SAYS : forall a, nsays G a <-> exists r, R r /\ a = map Some r.

Lemma path_app {D} (M : net D) u xs v ys w : npath M u xs v -> npath M v ys w -> npath M u (xs ++ ys) w.
Proof. induction 1; intros; [assumption|econstructor; eauto]. Qed.
(** an arc of the network is a word of a reading *)
Lemma arc_word x u : In x (n_out G u) -> exists w r, n_data G x = Some w /\ R r /\ In w r.
Proof.
  intros Hx. destruct (wf_reach _ WF _ _ Hx) as (xs & P1). destruct (wf_coreach _ WF _ _ Hx) as (t & ys & Et & P2).
  assert (Hs : nsays G (map (n_data G) (xs ++ x :: ys))).
  { unfold nsays. rewrite Et. eexists; split; [|reflexivity]. eapply path_app; [exact P1|]. econstructor; eassumption. }
  apply SAYS in Hs. destruct Hs as (r & Hr & E). assert (K : In (n_data G x) (map Some r)).
  { rewrite <- E, map_app. apply in_or_app. right. left. reflexivity. }
  apply in_map_iff in K. destruct K as (w & Ew & Iw). exists w, r. auto.
Qed.
Lemma no_null : no_null_data G.
Proof. intros x u Hx. destruct (arc_word x u Hx) as (w & r & -> & _). discriminate. Qed.
Lemma word_in_reading w : word_in G (Some w) -> exists r, R r /\ In w r.
Proof. intros [|(x & u & Hx & E)]; [discriminate|]. destruct (arc_word x u Hx) as (w' & r & E' & Hr & Hi). exists r. rewrite E in E'. injection E' as ->. auto. Qed.
Lemma full_says xs : full_path G xs -> exists r, R r /\ map (n_data G) xs = map Some r.
Proof.
  intros H. apply SAYS. unfold full_path in H. unfold nsays. destruct (n_stop G); [eauto|subst; reflexivity].
Qed.
Lemma says_full r : R r -> exists xs, full_path G xs /\ map (n_data G) xs = map Some r.
Proof.
  intros H. assert (K : nsays G (map Some r)) by (apply SAYS; eauto). unfold nsays in K. unfold full_path.
  destruct (n_stop G); [exact K|]. exists []. split; [reflexivity|]. rewrite K. reflexivity.
Qed.
End Two.

(** arcs to words and back *)
Definition wpair (GA GB : net word) (q : option nat * option nat) : option word * option word :=
  (NetDp_Spec.word_of GA (fst q), NetDp_Spec.word_of GB (snd q)).

Lemma lefts_map GA GB s : (forall x, In x (firsts s) -> n_data GA x <> None) ->
  map Some (lefts (map (wpair GA GB) s)) = map (n_data GA) (firsts s).
Proof.
  induction s as [|[[x|] b] s IH]; intros H; [reflexivity| |]; cbn [map lefts firsts flat_map wpair fst snd NetDp_Spec.word_of app].
  - destruct (n_data GA x) as [w|] eqn:E; [|exfalso; apply (H x); [left; reflexivity|exact E]].
    cbn [app map]. f_equal. apply IH. intros y Hy. apply H. right. exact Hy.
  - apply IH. intros y Hy. apply H. exact Hy.
Qed.
Lemma rights_map GA GB s : (forall x, In x (seconds s) -> n_data GB x <> None) ->
  map Some (rights (map (wpair GA GB) s)) = map (n_data GB) (seconds s).
Proof.
  induction s as [|[b [x|]] s IH]; intros H; [reflexivity| |]; cbn [map rights seconds flat_map wpair fst snd NetDp_Spec.word_of app].
  - destruct (n_data GB x) as [w|] eqn:E; [|exfalso; apply (H x); [left; reflexivity|exact E]].
    cbn [app map]. f_equal. apply IH. intros y Hy. apply H. right. exact Hy.
  - apply IH. intros y Hy. apply H. exact Hy.
Qed.
Lemma map_Some_inj {A} (l l' : list A) : map Some l = map Some l' -> l = l'.
Proof. revert l'; induction l as [|a l IH]; intros [|b l'] H; try discriminate; [reflexivity|]. cbn in H. injection H as -> H. f_equal; auto. Qed.

(** a pairing of words as a pairing of arcs of given paths *)
Lemma lift GA GB p : ~ In (None, None) p -> forall xs ys,
  map (n_data GA) xs = map Some (lefts p) -> map (n_data GB) ys = map Some (rights p) ->
  exists s, firsts s = xs /\ seconds s = ys /\ ~ In (None, None) s /\ map (wpair GA GB) s = p.
Proof.
  induction p as [|[a b] p IH]; intros N xs ys HX HY.
  - exists []. cbn in HX, HY. destruct xs; [|discriminate]. destruct ys; [|discriminate]. repeat split; auto.
  - assert (N' : ~ In (None, None) p) by (intros Hi; apply N; right; exact Hi).
    destruct a as [wa|], b as [wb|]; cbn [lefts rights flat_map fst snd app map] in HX, HY.
    + destruct xs as [|x xs]; [discriminate|]. destruct ys as [|y ys]; [discriminate|]. cbn [map] in HX, HY. injection HX as E1 HX. injection HY as E2 HY.
      destruct (IH N' xs ys HX HY) as (s & F1 & F2 & F3 & F4). exists ((Some x, Some y) :: s).
      cbn [firsts seconds flat_map fst snd app map]. unfold firsts in F1. unfold seconds in F2. rewrite F1, F2, F4. unfold wpair. cbn. rewrite E1, E2. repeat split; auto.
      intros [E|E]; [discriminate|auto].
    + destruct xs as [|x xs]; [discriminate|]. cbn [map] in HX. injection HX as E1 HX.
      destruct (IH N' xs ys HX HY) as (s & F1 & F2 & F3 & F4). exists ((Some x, None) :: s).
      cbn [firsts seconds flat_map fst snd app map]. unfold firsts in F1. unfold seconds in F2. rewrite F1, F2, F4. unfold wpair. cbn. rewrite E1. repeat split; auto.
      intros [E|E]; [discriminate|auto].
    + destruct ys as [|y ys]; [discriminate|]. cbn [map] in HY. injection HY as E2 HY.
      destruct (IH N' xs ys HX HY) as (s & F1 & F2 & F3 & F4). exists ((None, Some y) :: s).
      cbn [firsts seconds flat_map fst snd app map]. unfold firsts in F1. unfold seconds in F2. rewrite F1, F2, F4. unfold wpair. cbn. rewrite E2. repeat split; auto.
      intros [E|E]; [discriminate|auto].
    + exfalso. apply N. left. reflexivity.
Qed.

(** the distance of good fresh words *)
Definition fine (e : enc) (w : word) : Prop := fresh w /\ good_word e w.
Definition fine_opt (e : enc) (o : option word) : Prop := match o with Some w => fine e w | None => True end.
Lemma is_null_word_iff w : is_null_word w = true <-> null_word w.
Proof. unfold is_null_word, null_word. destruct (list_eq_dec N.eq_dec (w_value w) [64%N]); split; congruence. Qed.
Lemma at_value e w : fine e w -> is_at e w = Ok (is_null_word w).
Proof.
  intros (_ & G). destruct (is_at_ok e w (proj1 G)) as (b & -> & H). f_equal.
  destruct b, (is_null_word w) eqn:E; try reflexivity.
  - assert (K : is_null_word w = true) by (apply is_null_word_iff, H; reflexivity). congruence.
  - apply H, is_null_word_iff. exact E.
Qed.
Lemma equal_value e a b : fine e a -> fine e b -> exists z, equal_word e (Some a) (Some b) = Ok z /\ (z =? 0)%Z = same_value a b.
Proof.
  intros ((OA & FA) & GA) ((OB & FB) & GB).
  destruct (C28_verdict e a b (w_value a) (w_value b) GA GB) as (z & E & Hz); [left; auto|left; auto|].
  exists z. split; [exact E|]. rewrite FA, FB in Hz. cbn [orb same_text] in Hz. unfold same_value.
  destruct (list_eq_dec N.eq_dec (w_value a) (w_value b)) as [Q|Q].
  - apply Z.eqb_eq, Hz, Q.
  - apply Z.eqb_neq. intros K. apply Q, Hz, K.
Qed.
Lemma cost_dist e x y : x <> None \/ y <> None -> fine_opt e x -> fine_opt e y -> word_cost e x y = dist (x, y).
Proof.
  intros N FX FY. unfold word_cost, wwd_word, null_at. destruct x as [a|], y as [b|]; cbn [fine_opt] in FX, FY.
  - cbn [rbind]. rewrite (at_value e a FX), (at_value e b FY). destruct (equal_value e a b FX FY) as (z & E & Hz).
    cbn [rbind]. unfold dist. rewrite <- Hz. unfold is_null_word, same_value in *.
    destruct (list_eq_dec N.eq_dec (w_value a) [64%N]) as [Q|Q]; cbn [rbind].
    + destruct (list_eq_dec N.eq_dec (w_value b) [64%N]) as [Q'|Q'].
      * destruct (list_eq_dec N.eq_dec (w_value a) (w_value b)); [rewrite Hz; reflexivity|congruence].
      * destruct (list_eq_dec N.eq_dec (w_value a) (w_value b)); [congruence|]. rewrite E. cbn [rbind]. rewrite Hz. reflexivity.
    + rewrite E. cbn [rbind]. destruct (z =? 0)%Z; reflexivity.
  - rewrite (at_value e a FX). cbn [rbind]. unfold dist. destruct (is_null_word a); [reflexivity|]. rewrite (proj1 (proj1 FX)). reflexivity.
  - rewrite (at_value e b FY). cbn [rbind]. unfold dist. destruct (is_null_word b); [reflexivity|]. rewrite (proj1 (proj1 FY)). reflexivity.
  - destruct N; congruence.
Qed.
Lemma cost_total e GA GB s :
  Forall (fun q => (fst (wpair GA GB q) <> None \/ snd (wpair GA GB q) <> None) /\ fine_opt e (fst (wpair GA GB q)) /\ fine_opt e (snd (wpair GA GB q))) s ->
  align_cost (word_cost e) GA GB s = total (map (wpair GA GB) s).
Proof.
  induction 1 as [|q s (H1 & H2 & H3) _ IH]; [reflexivity|].
  unfold align_cost, total in *. cbn [fold_right map]. rewrite IH. f_equal. apply cost_dist; assumption.
Qed.
Lemma in_firsts s q : In q s -> forall x, fst q = Some x -> In x (firsts s).
Proof. intros Hq x E. apply in_flat_map. exists q. rewrite E. split; [exact Hq|left; reflexivity]. Qed.
Lemma in_seconds s q : In q s -> forall x, snd q = Some x -> In x (seconds s).
Proof. intros Hq x E. apply in_flat_map. exists q. rewrite E. split; [exact Hq|left; reflexivity]. Qed.
