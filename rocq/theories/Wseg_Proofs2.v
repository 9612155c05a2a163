(** What the network with the added arcs says. *)
From Coq Require Import List NArith ZArith Arith Bool Lia.
From Verif Require Import Base Net_Model Net_Spec Net_Proofs1 Text_Model Text_Spec Text_Proofs1 Word_Model Word_Spec Word_Proofs Anet_Model Anet_Spec Cnet_Spec Wseg_Model Wseg_Spec Wseg_Proofs1.
Import ListNotations.
Local Open Scope res_scope.

Section Says.
Context {D : Type}.
Variable append : D -> D -> res D.
Variable test : D -> res bool.
Variable Good : D -> Prop.
Variable G0 : net D.
Hypothesis W0 : wf_net G0.
Hypothesis D0 : forall u x, In x (n_out G0 u) -> exists d, n_data G0 x = Some d /\ Good d.
Variable G' : net D.
Hypothesis V : Inv append test Good G0 G'.

Lemma says_sound : forall xs u t, npath G' u xs t -> exists dss ds, spells G0 u t (concat dss) /\ map (n_data G') xs = map Some ds /\
  Forall2 (fun g d => g = [d] \/ (2 <= length g /\ J append g d /\ test d = Ok true)) dss ds.
Proof.
  induction xs as [|x xs IH]; intros u t P; inversion P; subst.
  - exists [], []. split; [exists []; split; [constructor|reflexivity]|]. split; [reflexivity|constructor].
  - destruct (IH _ _ H4) as (dss & ds & S & E & F). destruct (v_new append test Good G0 G' V u x H2) as [O|(d & es & DX & _ & SX & JX & L & T)].
    + destruct (D0 u x O) as (d & DX & _). destruct (v_old append test Good G0 G' V x) as (_ & TO & DO); [apply (wf_out G0 W0 x u O)|].
      exists ([d] :: dss), (d :: ds). cbn [concat]. split; [|split; [cbn [map]; congruence|constructor; auto]]. rewrite TO in S. apply (spells_app G0 u (n_to G0 x) t [d]); [|exact S].
      exists [x]. split; [econstructor; [exact O|constructor]|]. cbn. rewrite DX. reflexivity.
    + exists (es :: dss), (d :: ds). cbn [concat]. split; [eapply spells_app; eassumption|]. split; [cbn [map]; congruence|constructor; [right; auto|exact F]].
Qed.
Lemma spells_split u t a b : spells G0 u t (a ++ b) -> exists w, spells G0 u w a /\ spells G0 w t b.
Proof.
  intros (xs & P & E). rewrite map_app in E. destruct (map_eq_app _ _ _ _ E) as (ys & zs & -> & E1 & E2).
  destruct (npath_split G0 ys zs u t P) as (w & P1 & P2). exists w. split; [exists ys|exists zs]; auto.
Qed.
Lemma says_complete k :
  (forall u t a ds d, spells G0 u t (a :: ds) -> 1 <= length ds <= k -> lfold append a ds = Ok d -> test d = Ok true -> exists z, In z (n_out G' u) /\ n_to G' z = t /\ n_data G' z = Some d) ->
  forall dss ds u t, spells G0 u t (concat dss) ->
  Forall2 (fun g d => g = [d] \/ (2 <= length g <= S k /\ (exists a r, g = a :: r /\ lfold append a r = Ok d) /\ test d = Ok true)) dss ds ->
  exists xs, npath G' u xs t /\ map (n_data G') xs = map Some ds.
Proof.
  intros C dss ds u t S F. revert u t S. induction F as [|g d dss ds H F IH]; intros u t S.
  - destruct S as (xs & P & E). destruct xs; [|discriminate]. inversion P; subst. exists []. split; [constructor|reflexivity].
  - cbn [concat] in S. destruct (spells_split u t g (concat dss) S) as (w & S1 & S2). destruct (IH w t S2) as (xs & P & E).
    assert (A : exists x, In x (n_out G' u) /\ n_to G' x = w /\ n_data G' x = Some d).
    { destruct H as [->|(L & (a & r & -> & LF) & T)].
      - destruct S1 as (ys & P1 & E1). destruct ys as [|y [|]]; try discriminate. cbn [map] in E1. injection E1 as DY. inversion P1; subst. inversion H4; subst.
        destruct (v_old append test Good G0 G' V y) as (_ & TO & DO); [apply (wf_out G0 W0 y u H2)|]. exists y. split; [apply (v_out append test Good G0 G' V); assumption|]. split; congruence.
      - cbn [length] in L. apply (C u w a r d S1); [lia|exact LF|exact T]. }
    destruct A as (x & A1 & A2 & A3). exists (x :: xs). split; [econstructor; [exact A1|rewrite A2; exact P]|]. cbn [map]. congruence.
Qed.
End Says.

(** ** Words *)
Section Words.
Variable e : enc.

Lemma wf_app s t : well_formed e s -> well_formed e t -> well_formed e (s ++ t).
Proof. intros (cs & -> & H) (ds & -> & K). exists (cs ++ ds). split; [rewrite concat_app; reflexivity|apply Forall_app; auto]. Qed.
Lemma wf_byte b : (0 < b < 128)%N -> well_formed e [b].
Proof.
  intros H. exists [[b]]. split; [reflexivity|]. constructor; [|constructor]. exists b, []. split; [reflexivity|]. split; [|constructor; [lia|constructor]].
  unfold char_size. destruct e; cbn [length]; try lia; try reflexivity; (left; lia) || lia.
Qed.
Lemma it_text w : joinable e w -> it w = Ok (text_of w).
Proof. intros (_ & _ & _ & H). unfold it, text_of in *. destruct (w_opt_del w); [|reflexivity]. cbn [negb]. destruct (H eq_refl) as (-> & _). reflexivity. Qed.
Lemma at_null w : well_formed e (w_value w) -> is_at e w = Ok (is_null_word w).
Proof.
  intros H. unfold is_at, is_null_word. destruct (strcmp_text e _ _ H (wf_byte 64 ltac:(lia))) as (z & -> & Z0). cbn [rbind]. f_equal.
  destruct (list_eq_dec N.eq_dec (w_value w) [64%N]) as [E|E]; [apply Z.eqb_eq; tauto|apply Z.eqb_neq; tauto].
Qed.
Lemma null_plain w : joinable e w -> is_null_word w = true -> w_opt_del w = false /\ text_of w = [64%N].
Proof.
  intros (_ & _ & _ & H) E. unfold is_null_word in E. destruct (list_eq_dec N.eq_dec (w_value w) [64%N]) as [E1|]; [|discriminate].
  destruct (w_opt_del w) eqn:O; [destruct (H eq_refl) as (_ & K & _); congruence|]. split; [reflexivity|]. unfold text_of. rewrite O. exact E1.
Qed.
Lemma text_at w : joinable e w -> text_of w = [64%N] -> is_null_word w = true.
Proof.
  intros (_ & _ & _ & H) E. unfold is_null_word. destruct (w_opt_del w) eqn:O; [destruct (H eq_refl) as (_ & _ & K); congruence|]. unfold text_of in E. rewrite O in E. rewrite E.
  destruct (list_eq_dec N.eq_dec [64%N] [64%N]); congruence.
Qed.

(** What is known of a word made of [g]. *)
Record made (g : list word) (w : word) : Prop := {
  m_ok : joinable e w; m_text : text_of w = joined_text g; m_null : is_null_word w = forallb is_null_word g;
  m_opt : w_opt_del w = forallb w_opt_del g; m_frag : w_frag w = forallb w_frag g;
  m_t1 : w_t1 w = hd 0%Z (map w_t1 g); m_t2 : w_t2 w = last (map w_t2 g) 0%Z; m_weight : w_weight w = fold_right Z.add 0%Z (map w_weight g);
  m_more : 2 <= length g -> w = joined g }.

Lemma app_two (s t : list N) b : s <> [] -> t <> [] -> s ++ t <> [b].
Proof. destruct s as [|a [|]]; destruct t; try congruence; cbn; intros _ _ K; discriminate. Qed.
Lemma all_null_filter g : forallb is_null_word g = true -> filter (fun w => negb (is_null_word w)) g = [].
Proof. induction g as [|w g IH]; [reflexivity|]. cbn. intros H. apply andb_true_iff in H. destruct H as (-> & H). cbn. auto. Qed.
Lemma not_null_filter g : forallb is_null_word g = false -> filter (fun w => negb (is_null_word w)) g <> [].
Proof. induction g as [|w g IH]; [discriminate|]. cbn. destruct (is_null_word w); cbn; [auto|discriminate]. Qed.
Lemma joined_text_app g1 g2 : joined_text (g1 ++ g2) =
  if forallb is_null_word g1 then joined_text g2 else if forallb is_null_word g2 then joined_text g1 else joined_text g1 ++ joined_text g2.
Proof.
  unfold joined_text. rewrite filter_app. destruct (forallb is_null_word g1) eqn:E1.
  - rewrite (all_null_filter g1 E1). reflexivity.
  - pose proof (not_null_filter g1 E1) as N1. destruct (filter _ g1) as [|a l]; [congruence|]. destruct (forallb is_null_word g2) eqn:E2.
    + rewrite (all_null_filter g2 E2), app_nil_r. reflexivity.
    + pose proof (not_null_filter g2 E2) as N2. destruct (filter _ g2) as [|b m]; [congruence|]. cbn [app]. change (a :: l ++ b :: m) with ((a :: l) ++ b :: m). rewrite map_app, concat_app. reflexivity.
Qed.
Lemma last_app2 (A : Type) (l m : list A) d : m <> [] -> last (l ++ m) d = last m d.
Proof.
  intros NE. induction l as [|a l IH]; [reflexivity|]. cbn [app]. rewrite <- IH. destruct (l ++ m) eqn:E; [|reflexivity]. destruct l, m; try discriminate; congruence.
Qed.
Lemma sum_app (l m : list Z) : fold_right Z.add 0%Z (l ++ m) = (fold_right Z.add 0 l + fold_right Z.add 0 m)%Z.
Proof. induction l as [|a l IH]; [reflexivity|]. cbn [app fold_right]. rewrite IH. lia. Qed.

Lemma append_made g1 g2 w1 w2 : g1 <> [] -> g2 <> [] -> made g1 w1 -> made g2 w2 -> exists w, append_word e w1 w2 = Ok w /\ made (g1 ++ g2) w.
Proof.
  intros N1 N2 M1 M2. pose proof (m_ok _ _ M1) as K1. pose proof (m_ok _ _ M2) as K2.
  assert (RES : exists w, append_word e w1 w2 = Ok w /\ joinable e w /\ text_of w = joined_text (g1 ++ g2) /\ is_null_word w = (is_null_word w1 && is_null_word w2)
    /\ w_opt_del w = (w_opt_del w1 && w_opt_del w2) /\ w_frag w = (w_frag w1 && w_frag w2) /\ w_t1 w = w_t1 w1 /\ w_t2 w = w_t2 w2 /\ w_weight w = (w_weight w1 + w_weight w2)%Z
    /\ w_dur w = (w_t2 w2 - w_t1 w1)%Z /\ w_value w = (if w_opt_del w then 40%N :: text_of w ++ [41%N] else text_of w) /\ w_intern w = if w_opt_del w then Some (text_of w) else None).
  { destruct K1 as (A1 & A2 & A3 & A4) eqn:EK1. destruct K2 as (B1 & B2 & B3 & B4) eqn:EK2. clear EK1 EK2.
    unfold append_word. rewrite joined_text_app, <- (m_null _ _ M1), <- (m_null _ _ M2), <- (m_text _ _ M1), <- (m_text _ _ M2).
    destruct (w_opt_del w1 && w_opt_del w2) eqn:OO.
    - apply andb_true_iff in OO. destruct OO as (O1 & O2). rewrite (it_text w1), (it_text w2) by (apply M1 || apply M2). cbn [rbind].
      assert (Z1 : is_null_word w1 = false) by (destruct (is_null_word w1) eqn:Z; [destruct (null_plain w1 (m_ok _ _ M1) Z); congruence|reflexivity]).
      assert (Z2 : is_null_word w2 = false) by (destruct (is_null_word w2) eqn:Z; [destruct (null_plain w2 (m_ok _ _ M2) Z); congruence|reflexivity]).
      rewrite Z1, Z2. eexists. split; [reflexivity|]. split; [|unfold text_of, is_null_word; cbn [w_opt_del w_intern w_value]; repeat split].
      unfold joinable, text_of. cbn [w_opt_del w_intern w_value]. fold (text_of w1) (text_of w2). split.
      + change (40%N :: (text_of w1 ++ text_of w2) ++ [41%N]) with ([40%N] ++ (text_of w1 ++ text_of w2) ++ [41%N]). apply wf_app; [apply wf_byte; lia|]. apply wf_app; [apply wf_app; assumption|apply wf_byte; lia].
      + split; [destruct (text_of w1); [congruence|discriminate]|]. split; [apply wf_app; assumption|]. intros _. split; [reflexivity|]. split; [reflexivity|]. apply app_two; assumption.
    - rewrite (at_null w1 A1). cbn [rbind].
      assert (OK : forall t, t <> [] -> well_formed e t -> forall w, w_value w = t -> w_opt_del w = false -> joinable e w).
      { intros t T1 T2 w E O. unfold joinable, text_of. rewrite O, E. split; [exact T2|]. split; [exact T1|]. split; [exact T2|]. discriminate. }
      destruct (is_null_word w1) eqn:Z1.
      + rewrite (it_text w2) by apply M2. cbn [rbind]. eexists. split; [reflexivity|]. split; [eapply OK; [| |reflexivity|reflexivity]; assumption|].
        unfold text_of at 1. cbn [w_opt_del w_value andb]. split; [reflexivity|]. split; [|repeat split].
        unfold is_null_word at 1. cbn [w_value]. destruct (list_eq_dec N.eq_dec (text_of w2) [64%N]) as [E|E]; [symmetry; apply text_at; [apply M2|exact E]|].
        destruct (is_null_word w2) eqn:Z2; [|reflexivity]. destruct (null_plain w2 (m_ok _ _ M2) Z2) as (_ & K). congruence.
      + rewrite (at_null w2 B1). cbn [rbind]. destruct (is_null_word w2) eqn:Z2.
        * rewrite (it_text w1) by apply M1. cbn [rbind]. eexists. split; [reflexivity|]. split; [eapply OK; [| |reflexivity|reflexivity]; assumption|].
          unfold text_of at 1. cbn [w_opt_del w_value andb]. split; [reflexivity|]. split; [|repeat split].
          unfold is_null_word. cbn [w_value]. destruct (list_eq_dec N.eq_dec (text_of w1) [64%N]) as [E|E]; [|reflexivity]. pose proof (text_at w1 (m_ok _ _ M1) E). congruence.
        * rewrite (it_text w1), (it_text w2) by (apply M1 || apply M2). cbn [rbind]. eexists. split; [reflexivity|]. split.
          { eapply (OK (text_of w1 ++ text_of w2)); [| |reflexivity|reflexivity]; [destruct (text_of w1); [congruence|discriminate]|apply wf_app; assumption]. }
          unfold text_of at 1. cbn [w_opt_del w_value andb]. split; [reflexivity|]. split; [|repeat split].
          unfold is_null_word. cbn [w_value]. destruct (list_eq_dec N.eq_dec (text_of w1 ++ text_of w2) [64%N]) as [E|E]; [|reflexivity]. exfalso. exact (app_two _ _ _ A2 B2 E). }
  destruct RES as (w & E & R1 & R2 & R3 & R4 & R5 & R6 & R7 & R8 & R9 & R10 & R11). exists w. split; [exact E|].
  assert (HD : hd 0%Z (map w_t1 (g1 ++ g2)) = hd 0%Z (map w_t1 g1)) by (destruct g1; [congruence|reflexivity]).
  assert (LA : last (map w_t2 (g1 ++ g2)) 0%Z = last (map w_t2 g2) 0%Z) by (rewrite map_app; apply last_app2; destruct g2; [congruence|discriminate]).
  assert (EO : w_opt_del w = forallb w_opt_del (g1 ++ g2)) by (rewrite forallb_app, R4, (m_opt _ _ M1), (m_opt _ _ M2); reflexivity).
  assert (EF : w_frag w = forallb w_frag (g1 ++ g2)) by (rewrite forallb_app, R5, (m_frag _ _ M1), (m_frag _ _ M2); reflexivity).
  assert (E1 : w_t1 w = hd 0%Z (map w_t1 (g1 ++ g2))) by (rewrite HD, R6; apply M1).
  assert (E2 : w_t2 w = last (map w_t2 (g1 ++ g2)) 0%Z) by (rewrite LA, R7; apply M2).
  assert (EW : w_weight w = fold_right Z.add 0%Z (map w_weight (g1 ++ g2))) by (rewrite map_app, sum_app, R8, (m_weight _ _ M1), (m_weight _ _ M2); reflexivity).
  constructor; try assumption.
  - rewrite forallb_app, R3, (m_null _ _ M1), (m_null _ _ M2). reflexivity.
  - intros _. unfold joined. rewrite <- EO, <- EF, <- E1, <- E2, <- EW, <- R2, <- R10, <- R11, R6, R7, <- R9, <- R6, <- R7. destruct w; reflexivity.
Qed.
Lemma made_one w : joinable e w -> made [w] w.
Proof.
  intros H. constructor; try (cbn; rewrite ?andb_true_r; reflexivity); [exact H| | |cbn; lia].
  - unfold joined_text. cbn [filter]. destruct (is_null_word w) eqn:Z; cbn [negb].
    + apply (null_plain w H Z).
    + cbn. rewrite app_nil_r. reflexivity.
  - cbn [map fold_right]. lia.
Qed.
Lemma J_made g w : Forall (joinable e) g -> J (append_word e) g w -> g <> [] /\ made g w.
Proof.
  intros F H. induction H as [w|l1 l2 d1 d2 d H1 IH1 H2 IH2 E]; [split; [discriminate|apply made_one, (Forall_inv F)]|].
  apply Forall_app in F. destruct F as (F1 & F2). destruct (IH1 F1) as (N1 & M1). destruct (IH2 F2) as (N2 & M2).
  destruct (append_made l1 l2 d1 d2 N1 N2 M1 M2) as (d' & E' & M). rewrite E in E'. injection E' as <-. split; [destruct l1; [congruence|discriminate]|exact M].
Qed.
Lemma lfold_made r : Forall (joinable e) r -> forall g v, g <> [] -> made g v -> exists d, lfold (append_word e) v r = Ok d /\ made (g ++ r) d.
Proof.
  induction r as [|a r IH]; intros F g v NE M; [exists v; rewrite app_nil_r; split; [reflexivity|exact M]|].
  destruct (append_made g [a] v a NE ltac:(discriminate) M (made_one a (Forall_inv F))) as (v' & E & M'). cbn [lfold]. rewrite E. cbn [rbind].
  destruct (IH (Forall_inv_tail F) (g ++ [a]) v') as (d & E' & M''); [destruct g; discriminate|exact M'|]. rewrite <- app_assoc in M''. eauto.
Qed.
Lemma append_joinable a b : joinable e a -> joinable e b -> exists d, append_word e a b = Ok d /\ joinable e d.
Proof.
  intros A B. destruct (append_made [a] [b] a b ltac:(discriminate) ltac:(discriminate) (made_one a A) (made_one b B)) as (w & E & M). exists w. split; [exact E|apply M].
Qed.
End Words.
