(** Proofs about the links between the segments of an STM file. *)
From Coq Require Import String List NArith ZArith Arith Bool Ascii Lia Sorted Permutation.
From Verif Require Import Base Store_Model Segm_Model Links_Model Links_Spec Alt_Model Alt_Spec Alt_Proofs Alt_Proofs2 AsStm_Model AsStm_Spec AsStm_Proofs2.
Import ListNotations.
Local Open Scope res_scope.
Local Notation length := List.length.

(** [x] ends a segment and [y] begins the next one. *)
Definition follows (ss : list sseg) (x y : nat) : Prop :=
  exists a s s' b, ss = a ++ s :: s' :: b /\ In x (s_last s) /\ In y (s_first s').
Lemma follows_cons s s' ss x y : follows (s :: s' :: ss) x y <-> (In x (s_last s) /\ In y (s_first s')) \/ follows (s' :: ss) x y.
Proof.
  split.
  - intros (a & u & v & b & E & H). destruct a as [|z a]; cbn [app] in E; [injection E as <- <- _; left; exact H|]. injection E as _ E. right. exists a, u, v, b. auto.
  - intros [H|(a & u & v & b & E & H)]; [exists [], s, s', ss; auto|]. exists (s :: a), u, v, b. rewrite E. auto.
Qed.
Lemma follows_one s x y : ~ follows [s] x y.
Proof. intros (a & u & v & b & E & _). destruct a as [|? [|? a]]; discriminate. Qed.
Lemma joins_some : forall speech p x y, joins (Some (as_segment p)) (map as_segment speech) x y <-> follows (p :: filter speaks speech) x y.
Proof.
  induction speech as [|s speech IH]; intros p x y; cbn [map joins filter]; [split; [intros []|apply follows_one]|].
  replace (seg_empty (as_segment s)) with (negb (speaks s)) by (unfold seg_empty, speaks; cbn [as_segment sg_first sg_last]; destruct (s_first s), (s_last s); reflexivity).
  destruct (speaks s); cbn [negb]; [|apply IH]. rewrite follows_cons, IH. reflexivity.
Qed.
Lemma joins_none : forall speech x y, joins None (map as_segment speech) x y <-> follows (filter speaks speech) x y.
Proof.
  induction speech as [|s speech IH]; intros x y; cbn [map joins filter]; [split; [intros []|intros (a & u & v & b & E & _); destruct a; discriminate]|].
  replace (seg_empty (as_segment s)) with (negb (speaks s)) by (unfold seg_empty, speaks; cbn [as_segment sg_first sg_last]; destruct (s_first s), (s_last s); reflexivity).
  destruct (speaks s); cbn [negb]; [|apply IH]. rewrite joins_some. tauto.
Qed.
Lemma attach_speech_ok h speech : (mutual h -> mutual (attach_speech h speech)) /\ forall x y, edge (attach_speech h speech) x y <-> edge h x y \/ follows (filter speaks speech) x y.
Proof.
  unfold attach_speech. destruct (Nat.ltb_spec 1 (length speech)) as [L|L].
  - destruct (attach_segments_spec (map as_segment speech) h None) as (M & E). split; [exact M|]. intros x y. rewrite E, joins_none. reflexivity.
  - split; [auto|]. intros x y. split; [auto|]. intros [H|(a & u & v & b & E & _)]; [exact H|]. exfalso. assert (K : length (filter speaks speech) <= length speech) by (clear; induction speech as [|s l IH]; cbn; [lia|destruct (speaks s); cbn; lia]).
    rewrite E, app_length in K. cbn in K. lia.
Qed.
Lemma attach_all_ok : forall set h, (mutual h -> mutual (fold_left attach_speech set h)) /\ forall x y, edge (fold_left attach_speech set h) x y <-> edge h x y \/ exists speech, In speech set /\ follows (filter speaks speech) x y.
Proof.
  induction set as [|sp set IH]; intros h; cbn [fold_left].
  - split; [auto|]. intros x y. split; [auto|intros [H|(s & [] & _)]; exact H].
  - destruct (attach_speech_ok h sp) as (M1 & E1). destruct (IH (attach_speech h sp)) as (M2 & E2). split; [auto|]. intros x y. rewrite E2, E1. split.
    + intros [[H|H]|(s & H1 & H2)]; [left; exact H|right; exists sp; split; [left; reflexivity|exact H]|right; exists s; split; [right; exact H1|exact H2]].
    + intros [H|(s & [<-|H1] & H2)]; [left; left; exact H|left; right; exact H2|right; eauto].
Qed.

Section Speech.
Variables (st : pstate) (set : list (list sseg)) (n : nat) (iv : nat -> nat * nat).
Hypothesis G : good st.
Hypothesis IV : ivs n st (concat set) iv.
Hypothesis RS : forall speech, In speech set -> StronglySorted lt (map s_line speech).
Let st' : pstate := {| ps_toks := ps_toks st; ps_links := fold_left attach_speech set (ps_links st) |}.
Let inside (s : sseg) (x : nat) : Prop := fst (iv (s_line s)) <= x < snd (iv (s_line s)).
Let all (s : sseg) : Prop := In s (concat set).

Lemma inside_same s s' x : all s -> all s' -> inside s x -> inside s' x -> s_line s = s_line s'.
Proof.
  intros A A' (H1 & H2) (H3 & H4). destruct (iv_segs _ _ _ _ IV s A) as (L & _). destruct (iv_segs _ _ _ _ IV s' A') as (L' & _).
  destruct (lt_eq_lt_dec (s_line s) (s_line s')) as [[K|K]|K]; [|exact K|].
  - pose proof (iv_order _ _ _ _ IV _ _ K L'). lia.
  - pose proof (iv_order _ _ _ _ IV _ _ K L). lia.
Qed.
Lemma line_same s s' : all s -> all s' -> s_line s = s_line s' -> s = s'.
Proof.
  intros A A' E. pose proof (iv_once _ _ _ _ IV) as ND. unfold all in *. destruct (in_split _ _ A) as (a & b & EQ). rewrite EQ in A', ND. rewrite map_app in ND. cbn [map] in ND. apply NoDup_remove_2 in ND.
  apply in_app_iff in A'. destruct A' as [H|[H|H]]; [|exact H|]; exfalso; apply ND, in_app_iff; [left|right]; rewrite E; apply in_map, H.
Qed.
Lemma first_inside s x : all s -> In x (s_first s) -> inside s x.
Proof. intros A H. exact (proj1 (proj2 (iv_segs _ _ _ _ IV s A)) x H). Qed.
Lemma last_inside s x : all s -> In x (s_last s) -> inside s x.
Proof. intros A H. exact (proj2 (proj2 (iv_segs _ _ _ _ IV s A)) x H). Qed.
Lemma sub_sorted speech : StronglySorted lt (map s_line speech) -> StronglySorted lt (map s_line (filter speaks speech)).
Proof.
  induction speech as [|s l IH]; intros S; [constructor|]. cbn [map] in S. inversion S as [|? ? S1 F]; subst. cbn [filter]. destruct (speaks s); [|auto]. cbn [map]. constructor; [auto|]. apply Forall_forall. intros k Hk. apply in_map_iff in Hk. destruct Hk as (z & <- & Hz). apply filter_In in Hz. rewrite Forall_forall in F. apply F, in_map, Hz.
Qed.
Lemma in_speech speech s : In speech set -> In s (filter speaks speech) -> all s.
Proof. intros H K. apply filter_In in K. unfold all. apply in_concat. exists speech. split; [exact H|apply K]. Qed.
Lemma pair_rises speech a s s' b : In speech set -> filter speaks speech = a ++ s :: s' :: b -> s_line s < s_line s' /\ all s /\ all s'.
Proof.
  intros H E. pose proof (sub_sorted _ (RS _ H)) as S. rewrite E, map_app in S. cbn [map] in S.
  assert (K : forall (a : list nat) x y r, StronglySorted lt (a ++ x :: y :: r) -> x < y). { clear. induction a as [|z a IH]; intros x y r S; cbn [app] in S; inversion S as [|? ? S1 F]; subst; [exact (Forall_inv F)|exact (IH _ _ _ S1)]. }
  split; [exact (K _ _ _ _ S)|]. split; apply (in_speech speech); try exact H; rewrite E, in_app_iff; right; cbn; auto.
Qed.
(** An edge stays in its segment or leads to the next one. *)
Lemma edge_cases speech a s b x y : In speech set -> filter speaks speech = a ++ s :: b -> inside s x -> edge (ps_links st') x y ->
  (edge (ps_links st) x y /\ inside s y) \/ (In x (s_last s) /\ exists s' r, b = s' :: r /\ In y (s_first s')).
Proof.
  intros H E IN ED. unfold st' in ED. cbn [ps_links] in ED. apply (proj2 (attach_all_ok set (ps_links st))) in ED.
  assert (AS : all s) by (apply (in_speech speech); [exact H|rewrite E, in_app_iff; right; left; reflexivity]).
  destruct ED as [ED|(sp & HS & a' & u & v & b' & E' & H1 & H2)].
  - left. split; [exact ED|]. destruct (iv_segs _ _ _ _ IV s AS) as (L & _). exact (iv_closed _ _ _ _ IV _ _ _ L IN ED).
  - right. destruct (pair_rises sp a' u v b' HS E') as (_ & AU & _).
    assert (u = s) as -> by (apply line_same; [exact AU|exact AS|]; apply (inside_same _ _ x); auto using last_inside). split; [exact H1|].
    assert (SP : sp = speech).
    { pose proof (iv_once _ _ _ _ IV) as ND. assert (I1 : In s sp) by (apply (filter_In speaks); rewrite E', in_app_iff; right; left; reflexivity). assert (I2 : In s speech) by (apply (filter_In speaks); rewrite E, in_app_iff; right; left; reflexivity).
      clear - ND HS H I1 I2. revert ND HS H. generalize set as S. induction S as [|z S IH]; intros ND HS H; [destruct HS|]. cbn [concat] in ND. rewrite map_app in ND.
      assert (C : forall t, In t S -> In s t -> In s z -> False).
      { intros t Ht Hs Hz. assert (D : forall (l1 l2 : list nat) k, NoDup (l1 ++ l2) -> In k l1 -> In k l2 -> False). { clear. induction l1 as [|c l1 IH]; intros l2 k ND I1 I2; [destruct I1|]. cbn [app] in ND. inversion ND as [|? ? NI ND1]; subst. destruct I1 as [->|I1]; [apply NI, in_app_iff; right; exact I2|eauto]. }
        apply (D _ _ (s_line s) ND); apply in_map; [exact Hz|]. apply in_concat. exists t. auto. }
      assert (NDr : NoDup (map s_line (concat S))) by (clear - ND; induction (map s_line z) as [|c l IHl]; [exact ND|inversion ND; auto]).
      destruct HS as [<-|HS], H as [<-|H]; [reflexivity|exfalso; eauto|exfalso; eauto|auto]. }
    subst sp. rewrite E in E'. pose proof (sub_sorted _ (RS _ H)) as S. rewrite E in S.
    assert (K : forall (a a' : list sseg) b b', a ++ s :: b = a' ++ s :: b' -> StronglySorted lt (map s_line (a ++ s :: b)) -> b = b').
    { clear. induction a as [|z a IH]; intros a' b b' E S; destruct a' as [|z' a']; cbn [app] in E; cbn [app map] in S; inversion S as [|? ? S1 F]; subst.
      - injection E as ->. reflexivity.
      - injection E as <- ->. rewrite Forall_forall in F. specialize (F (s_line s)). rewrite map_app, in_app_iff in F. specialize (F (or_intror (or_introl eq_refl))). lia.
      - injection E as -> <-. rewrite Forall_forall in F. specialize (F (s_line s)). rewrite map_app, in_app_iff in F. specialize (F (or_intror (or_introl eq_refl))). lia.
      - injection E as -> E. exact (IH _ _ _ E S1). }
    exists v, b'. split; [exact (K _ _ _ _ E' S)|exact H2].
Qed.
Lemma edge_rises x y : edge (ps_links st') x y -> x < y < length (ps_toks st).
Proof.
  intros ED. unfold st' in ED. cbn [ps_links] in ED. apply (proj2 (attach_all_ok set (ps_links st))) in ED. destruct ED as [ED|(sp & HS & a' & u & v & b' & E' & H1 & H2)]; [exact (proj2 G x y ED)|].
  destruct (pair_rises sp a' u v b' HS E') as (L & AU & AV). apply last_inside in H1; [|exact AU]. apply first_inside in H2; [|exact AV]. destruct (iv_segs _ _ _ _ IV v AV) as (LV & _). pose proof (iv_order _ _ _ _ IV _ _ L LV). pose proof (iv_low _ _ _ _ IV _ LV). unfold inside in *. lia.
Qed.
Lemma walk_rises : forall l a, walk (ps_links st') a l -> a <= last l a.
Proof.
  induction l as [|b l IH]; intros a W; [cbn; lia|]. destruct W as (E & W). apply edge_rises in E. rewrite last_cons. specialize (IH b W). lia.
Qed.
Lemma good' : good st'.
Proof. split; [apply (proj1 (attach_all_ok set (ps_links st))), (proj1 G)|]. intros x y H. exact (edge_rises x y H). Qed.
Lemma walk_sub : forall l a, walk (ps_links st) a l -> walk (ps_links st') a l.
Proof.
  induction l as [|b l IH]; intros a W; [exact I|]. destruct W as (E & W). split; [|auto]. unfold st'. cbn [ps_links]. apply (proj2 (attach_all_ok set (ps_links st))). left. exact E.
Qed.
Lemma walk_back speech p s b : In speech set -> filter speaks speech = p ++ s :: b -> forall l a, inside s a -> inside s (last l a) -> walk (ps_links st') a l -> walk (ps_links st) a l.
Proof.
  intros H E. induction l as [|c l IH]; intros a IA IL W; [exact I|]. destruct W as (ED & W). rewrite last_cons in IL. destruct (edge_cases speech p s b a c H E IA ED) as [(ED0 & IC)|(_ & s' & r & -> & HF)]; [split; auto|].
  exfalso. destruct (pair_rises speech p s s' r H E) as (L & AS & AS'). apply first_inside in HF; [|exact AS']. pose proof (walk_rises _ _ W) as LE. destruct (iv_segs _ _ _ _ IV s' AS') as (LV & _). pose proof (iv_order _ _ _ _ IV _ _ L LV). unfold inside in *. lia.
Qed.
Lemma spells_same s : all s -> forall w, spells st' (s_first s) (s_last s) w <-> spells st (s_first s) (s_last s) w.
Proof.
  intros A w. split; intros (a & l & H1 & H2 & H3 & H4); exists a, l; (split; [exact H1|]; split; [|split; [exact H3|exact H4]]); [|apply walk_sub, H2].
  unfold all in A. apply in_concat in A. destruct A as (speech & HS & Hs). assert (A : all s) by (apply in_concat; eauto).
  assert (SK : In s (filter speaks speech)). { apply filter_In. split; [exact Hs|]. unfold speaks. destruct (s_first s); [destruct H1|]. destruct (s_last s); [destruct H3|reflexivity]. }
  destruct (in_split _ _ SK) as (p & b & E). apply (walk_back speech p s b HS E); [apply first_inside|apply last_inside|]; assumption.
Qed.
Lemma text_same x : text_of st' x = text_of st x.
Proof. reflexivity. Qed.

(** A walk to the last segment passes through the one after this. *)
Lemma walk_split speech p s s2 b t : In speech set -> filter speaks speech = p ++ s :: s2 :: b -> In t (s2 :: b) -> forall l a, inside s a -> walk (ps_links st') a l -> In (last l a) (s_last t) ->
  exists l1 c l2, l = l1 ++ c :: l2 /\ walk (ps_links st) a l1 /\ In (last l1 a) (s_last s) /\ In c (s_first s2) /\ walk (ps_links st') c l2.
Proof.
  intros H E HT. induction l as [|c l IH]; intros a IA W HL.
  - exfalso. cbn [last] in HL. assert (AT : all t) by (apply (in_speech speech); [exact H|rewrite E, in_app_iff; right; right; exact HT]). assert (AS : all s) by (apply (in_speech speech); [exact H|rewrite E, in_app_iff; right; left; reflexivity]).
    apply last_inside in HL; [|exact AT]. pose proof (inside_same _ _ _ AS AT IA HL) as EL. pose proof (sub_sorted _ (RS _ H)) as S. rewrite E, map_app in S.
    assert (K : forall (q : list nat) x r, StronglySorted lt (q ++ x :: r) -> Forall (lt x) r). { clear. induction q as [|z q IH]; intros x r S; cbn [app] in S; inversion S as [|? ? S1 F]; subst; [exact F|exact (IH _ _ S1)]. }
    cbn [map] in S. apply K in S. rewrite Forall_forall in S. specialize (S (s_line t)). change (s_line s2 :: map s_line b) with (map s_line (s2 :: b)) in S. specialize (S (in_map _ _ _ HT)). lia.
  - destruct W as (ED & W). rewrite last_cons in HL. destruct (edge_cases speech p s (s2 :: b) a c H E IA ED) as [(ED0 & IC)|(HA & s' & r & ES & HF)].
    + destruct (IH c IC W HL) as (l1 & d & l2 & -> & W1 & L1 & F & W2). exists (c :: l1), d, l2. split; [reflexivity|]. split; [split; assumption|]. split; [rewrite last_cons; exact L1|]. auto.
    + injection ES as <- _. exists [], c, l. split; [reflexivity|]. split; [exact I|]. auto.
Qed.
Lemma speech_says speech : In speech set -> forall b p s, filter speaks speech = p ++ s :: b -> forall w,
  spells st' (s_first s) (s_last (last b s)) w <-> exists parts, Forall2 (fun s part => spells st' (s_first s) (s_last s) part) (s :: b) parts /\ w = concat parts.
Proof.
  intros H. induction b as [|s2 b IH]; intros p s E w.
  - cbn [last]. split; [intros K; exists [w]; split; [constructor; [exact K|constructor]|cbn; rewrite app_nil_r; reflexivity]|].
    intros (parts & F & ->). inversion F as [|? part ? ? K F2]; subst. inversion F2; subst. cbn. rewrite app_nil_r. exact K.
  - assert (AS : all s) by (apply (in_speech speech); [exact H|rewrite E, in_app_iff; right; left; reflexivity]).
    assert (E2 : filter speaks speech = (p ++ [s]) ++ s2 :: b) by (rewrite E, <- app_assoc; reflexivity). specialize (IH (p ++ [s]) s2 E2).
    assert (EL : last (s2 :: b) s = last b s2). { clear. revert s s2. induction b as [|z b IH]; intros s s2; [reflexivity|]. change (last (s2 :: z :: b) s) with (last (z :: b) s). rewrite IH. symmetry. apply IH. }
    rewrite EL. split.
    + intros (a & l & H1 & W & HL & T). assert (HT : In (last b s2) (s2 :: b)). { clear. revert s2. induction b as [|z b IH]; intros s2; [left; reflexivity|]. right. destruct b as [|z' b]; [left; reflexivity|]. replace (last (z :: z' :: b) s2) with (last (z' :: b) z); [apply IH|]. clear. revert z z' s2. induction b as [|y b IH]; intros; [reflexivity|]. change (last (y :: b) z = last (y :: b) s2). destruct b; [reflexivity|]. apply (IH z y). }
      destruct (walk_split speech p s s2 b _ H E HT l a (first_inside s a AS H1) W HL) as (l1 & c & l2 & -> & W1 & L1 & F & W2).
      rewrite last_app_cons in HL. change (a :: l1 ++ c :: l2) with ((a :: l1) ++ (c :: l2)) in T. rewrite map_app in T.
      destruct (proj1 (IH (map (text_of st') (c :: l2)))) as (parts & FP & EP). { exists c, l2. auto. }
      exists (map (text_of st') (a :: l1) :: parts). split; [|cbn [concat]; rewrite <- EP; symmetry; exact T]. constructor; [|exact FP]. exists a, l1. split; [exact H1|]. split; [apply walk_sub, W1|]. split; [exact L1|reflexivity].
    + intros (parts & FP & ->). inversion FP as [|? part ? parts' (a & l1 & A1 & A2 & A3 & A4) FP2]; subst. destruct (proj2 (IH (concat parts')) (ex_intro _ parts' (conj FP2 eq_refl))) as (c & l2 & B1 & B2 & B3 & B4).
      exists a, (l1 ++ c :: l2). split; [exact A1|]. split; [|split; [rewrite last_app_cons; exact B3|]].
      * assert (JE : edge (ps_links st') (last l1 a) c). { unfold st'. cbn [ps_links]. apply (proj2 (attach_all_ok set (ps_links st))). right. exists speech. split; [exact H|]. exists p, s, s2, b. auto. }
        clear - A2 JE B2. revert a A2 JE. induction l1 as [|z l1 IHl]; intros a W JE; cbn [app walk]; [split; assumption|]. destruct W as (E1 & W). rewrite last_cons in JE. split; [exact E1|auto].
      * change (a :: l1 ++ c :: l2) with ((a :: l1) ++ (c :: l2)). rewrite map_app. cbn [concat]. rewrite B4. reflexivity.
Qed.
End Speech.
