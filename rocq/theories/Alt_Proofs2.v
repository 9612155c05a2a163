(** From transcript lines to the speech that the alignment uses; times of the words. *)
From Coq Require Import List ZArith Arith Bool Ascii String Lia.
From Verif Require Import Base Graph_Model Graph_Spec Links_Model Links_Spec Links_Proofs Alt_Model Alt_Spec Alt_Proofs.
Import ListNotations.
Local Open Scope res_scope.
Local Notation len := (@List.length _).

Lemma Forall2_len : forall A B (R : A -> B -> Prop) l1 l2, Forall2 R l1 l2 -> List.length l1 = List.length l2.
Proof. intros A B R l1 l2 H. induction H; cbn; auto. Qed.

(** ** A segment inside its interval of tokens *)
Record placed (h : links) (lo hi : nat) (s : segment) : Prop := {
  pl_le : lo <= hi;
  pl_first : within lo hi (sg_first s);
  pl_last : within lo hi (sg_last s);
  pl_edges : forall x y, edge h x y -> (lo <= x < hi <-> lo <= y < hi);
  pl_reached : forall t, lo <= t < hi -> exists f l, In f (sg_first s) /\ walk h f l /\ List.last l f = t;
  pl_reaches : forall t, lo <= t < hi -> exists l, walk h t l /\ In (List.last l t) (sg_last s);
  pl_firm : forall x, In x (sg_last s) -> nxt h x = []
}.

Fixpoint chained (h : links) (lo : nat) (segs : list segment) (hi : nat) : Prop :=
  match segs with
  | [] => lo <= hi
  | s :: r => exists m, placed h lo m s /\ chained h m r hi
  end.

Fixpoint joins (prev : option segment) (segs : list segment) (x y : nat) : Prop :=
  match segs with
  | [] => False
  | s :: r =>
      if seg_empty s then joins prev r x y
      else match prev with Some p => In x (sg_last p) /\ In y (sg_first s) | None => False end \/ joins (Some s) r x y
  end.

Lemma attach_segments_spec : forall segs h prev,
  (mutual h -> mutual (attach_segments h prev segs)) /\
  forall x y, edge (attach_segments h prev segs) x y <-> edge h x y \/ joins prev segs x y.
Proof.
  induction segs as [|s r IH]; intros h prev; cbn [attach_segments joins].
  - split; [auto|]. intros x y. tauto.
  - destruct (seg_empty s); [apply IH|].
    destruct (IH (match prev with Some p => attach h (sg_last p) (sg_first s) | None => h end) (Some s)) as [H1 H2].
    split.
    + intros Hm. apply H1. destruct prev as [p|]; [apply attach_spec; exact Hm|exact Hm].
    + intros x y. rewrite H2. destruct prev as [p|]; [|tauto].
      rewrite (proj2 (attach_spec (sg_last p) (sg_first s) h) x y). tauto.
Qed.

Lemma chained_in : forall h segs lo hi s, chained h lo segs hi -> In s segs ->
  exists a b, lo <= a /\ b <= hi /\ placed h a b s.
Proof.
  intros h. induction segs as [|s0 r IH]; intros lo hi s H Hs; [destruct Hs|].
  destruct H as (m & Hp & Hr).
  assert (Hm : m <= hi).
  { clear - Hr. revert m Hr. induction r as [|s1 r IH]; intros m H; [exact H|]. destruct H as (m' & Hp & H).
    apply IH in H. pose proof (pl_le _ _ _ _ Hp). lia. }
  destruct Hs as [<-|Hs]; [exists lo, m; auto|].
  destruct (IH m hi s Hr Hs) as (a & b & H1 & H2 & H3). exists a, b. pose proof (pl_le _ _ _ _ Hp). split; [lia|auto].
Qed.

Lemma joins_y : forall h segs prev lo hi x y, chained h lo segs hi -> joins prev segs x y -> lo <= y.
Proof.
  intros h. induction segs as [|s r IH]; intros prev lo hi x y H Hj; [destruct Hj|].
  destruct H as (m & Hp & Hr). pose proof (pl_le _ _ _ _ Hp). cbn [joins] in Hj. destruct (seg_empty s).
  - specialize (IH prev m hi x y Hr Hj). lia.
  - destruct Hj as [Hj|Hj]; [|specialize (IH _ m hi x y Hr Hj); lia].
    destruct prev as [p|]; [|destruct Hj]. destruct Hj as [_ Hy]. apply (pl_first _ _ _ _ Hp) in Hy. lia.
Qed.
Lemma joins_x : forall h segs prev lo hi x y, chained h lo segs hi -> joins prev segs x y ->
  lo <= x \/ exists p, prev = Some p /\ In x (sg_last p).
Proof.
  intros h. induction segs as [|s r IH]; intros prev lo hi x y H Hj; [destruct Hj|].
  destruct H as (m & Hp & Hr). pose proof (pl_le _ _ _ _ Hp). cbn [joins] in Hj. destruct (seg_empty s).
  - destruct (IH prev m hi x y Hr Hj) as [H1|H1]; [left; lia|auto].
  - destruct Hj as [Hj|Hj].
    + destruct prev as [p|]; [|destruct Hj]. right. exists p. tauto.
    + destruct (IH _ m hi x y Hr Hj) as [H1|(p & E & H1)]; [left; lia|]. injection E as <-.
      apply (pl_last _ _ _ _ Hp) in H1. left. lia.
Qed.

Lemma placed_empty : forall h lo hi s, placed h lo hi s -> seg_empty s = true -> sg_first s = [].
Proof.
  intros h lo hi s Hp He. unfold seg_empty in He. destruct (sg_first s) as [|f fs] eqn:Ef; [reflexivity|].
  destruct (sg_last s) as [|l ls] eqn:El; [|discriminate]. exfalso.
  assert (Hf : lo <= f < hi) by (apply (pl_first _ _ _ _ Hp); rewrite Ef; now left).
  destruct (pl_reaches _ _ _ _ Hp f Hf) as (k & _ & Hk). rewrite El in Hk. destruct Hk.
Qed.

Lemma joins_lt : forall h segs prev lo hi x y, chained h lo segs hi ->
  (forall p, prev = Some p -> forall z, In z (sg_last p) -> z < lo) -> joins prev segs x y -> x < y < hi.
Proof.
  intros h. induction segs as [|s r IH]; intros prev lo hi x y H Hprev Hj; [destruct Hj|].
  pose proof (chained_in h (s :: r) lo hi s H (or_introl eq_refl)) as (_ & _ & _ & _ & _).
  destruct H as (m & Hp & Hr). pose proof (pl_le _ _ _ _ Hp).
  assert (Hm : m <= hi).
  { clear - Hr. revert m Hr. induction r as [|s1 r IH]; intros m H; [exact H|]. destruct H as (m' & Hp & H).
    apply IH in H. pose proof (pl_le _ _ _ _ Hp). lia. }
  cbn [joins] in Hj. destruct (seg_empty s).
  - apply (IH prev m hi x y Hr); [|exact Hj]. intros p E z Hz. specialize (Hprev p E z Hz). lia.
  - destruct Hj as [Hj|Hj].
    + destruct prev as [p|]; [|destruct Hj]. destruct Hj as [Hx Hy]. specialize (Hprev p eq_refl x Hx).
      apply (pl_first _ _ _ _ Hp) in Hy. lia.
    + apply (IH (Some s) m hi x y Hr); [|exact Hj]. intros p E z Hz. injection E as <-.
      apply (pl_last _ _ _ _ Hp) in Hz. lia.
Qed.

Lemma linked_from : forall h h' segs lo hi prev,
  chained h lo segs hi ->
  (forall x y, edge h x y -> edge h' x y) ->
  (forall x y, lo <= y -> (edge h' x y <-> edge h x y \/ joins prev segs x y)) ->
  (forall x y, edge h' x y -> x < y) ->
  (forall p, prev = Some p -> sg_last p <> [] /\ forall x, In x (sg_last p) -> x < lo) ->
  mutual h' ->
  linked_speech h' (option_map sg_last prev) segs.
Proof.
  intros h h'. induction segs as [|s r IH]; intros lo hi prev Hc Hsub He Hup Hprev Hm; [exact I|].
  destruct Hc as (m & Hp & Hr). pose proof (pl_le _ _ _ _ Hp) as Hlm. cbn [linked_speech].
  destruct (seg_empty s) eqn:Ee.
  - split; [apply (placed_empty h lo m); assumption|]. apply (IH m hi prev Hr Hsub); [|exact Hup| |exact Hm].
    + intros x y Hy. rewrite He by lia. cbn [joins]. rewrite Ee. reflexivity.
    + intros p Hpp. destruct (Hprev p Hpp) as [H1 H2]. split; [exact H1|]. intros x Hx. specialize (H2 x Hx). lia.
  - assert (Hj : forall x y, lo <= x < m -> ~ In x (sg_last s) -> edge h' x y -> edge h x y /\ lo <= y < m).
    { intros x y Hx Hnl Hxy. pose proof (Hup x y Hxy) as Hlt.
      apply He in Hxy; [|lia]. destruct Hxy as [Hxy|Hxy].
      - split; [exact Hxy|]. apply (pl_edges _ _ _ _ Hp x y Hxy). exact Hx.
      - exfalso. cbn [joins] in Hxy. rewrite Ee in Hxy. destruct Hxy as [Hxy|Hxy].
        + destruct prev as [p|]; [|destruct Hxy]. destruct Hxy as [Hxp _].
          destruct (Hprev p eq_refl) as [_ H2]. specialize (H2 x Hxp). lia.
        + destruct (joins_x h r (Some s) m hi x y Hr Hxy) as [H1|(p & E & H1)]; [lia|]. injection E as <-. contradiction. }
    assert (Hin : forall t, seg_token (nxt h') s t -> lo <= t < m).
    { intros t (f & Hf & Hreach). induction Hreach as [|b c Hb IHb Hnl Hc].
      - apply (pl_first _ _ _ _ Hp). exact Hf.
      - apply (Hj b c IHb Hnl Hc). }
    assert (Htok : forall t, lo <= t < m -> seg_token (nxt h') s t).
    { intros t Ht. destruct (pl_reached _ _ _ _ Hp t Ht) as (f & l & Hf & Hw & <-). exists f. split; [exact Hf|].
      clear Ht. revert Hw. generalize (reach_refl (nxt h') (sg_last s) f).
      assert (G : forall l a, reach (nxt h') (sg_last s) f a -> walk h a l -> reach (nxt h') (sg_last s) f (List.last l a)).
      { clear l. induction l as [|b l IHl]; intros a Ha Hw; [exact Ha|]. rewrite last_cons. destruct Hw as [Hab Hw].
        apply IHl; [|exact Hw]. apply (reach_step _ _ _ a b Ha); [|apply Hsub; exact Hab].
        intros Hl. apply (pl_firm _ _ _ _ Hp) in Hl. unfold edge in Hab. rewrite Hl in Hab. destruct Hab. }
      intros Ha Hw. apply G; assumption. }
    assert (Hprc : forall t p, In p (prc h' t) -> edge h' p t).
    { intros t p Hpt. unfold edge. apply (count_occ_In Nat.eq_dec). rewrite (Hm p t).
      apply (count_occ_In Nat.eq_dec). exact Hpt. }
    split; [|split; [|split; [|split]]].
    + intros t p Ht Hpt. apply Hprc in Hpt. pose proof (Hin t Ht) as Hti. apply He in Hpt; [|lia].
      destruct Hpt as [Hpt|Hpt].
      * left. pose proof (proj2 (pl_edges _ _ _ _ Hp p t Hpt) Hti) as Hpi. split; [apply Htok; exact Hpi|].
        intros Hl. apply (pl_firm _ _ _ _ Hp) in Hl. unfold edge in Hpt. rewrite Hl in Hpt. destruct Hpt.
      * right. cbn [joins] in Hpt. rewrite Ee in Hpt. destruct Hpt as [Hpt|Hpt].
        -- destruct prev as [q|]; [|destruct Hpt]. cbn [option_map]. tauto.
        -- exfalso. apply (joins_y h r (Some s) m hi) in Hpt; [lia|exact Hr].
    + destruct prev as [q|]; cbn [option_map]; [|exact I]. destruct (Hprev q eq_refl) as [H1 H2]. split; [exact H1|].
      intros t p Ht Hpq. apply He; [apply (pl_first _ _ _ _ Hp) in Ht; lia|]. right. cbn [joins]. rewrite Ee. now left.
    + unfold seg_empty in Ee. destruct (sg_first s); [discriminate|]. destruct (sg_last s); [discriminate|]. discriminate.
    + intros t Ht. apply Htok. apply (pl_last _ _ _ _ Hp). exact Ht.
    + apply (IH m hi (Some s) Hr Hsub); [|exact Hup| |exact Hm].
      * intros x y Hy. rewrite He by lia. cbn [joins]. rewrite Ee. split; [|tauto].
        intros [H|[H|H]]; [now left| |now right]. exfalso. destruct prev as [q|]; [|destruct H]. destruct H as [_ H].
        apply (pl_first _ _ _ _ Hp) in H. lia.
      * intros p E. injection E as <-. split; [|intros x Hx; apply (pl_last _ _ _ _ Hp) in Hx; lia].
        unfold seg_empty in Ee. destruct (sg_first s); [discriminate|]. destruct (sg_last s); [discriminate|]. discriminate.
Qed.

(** ** Parsed lines are placed *)
Lemma walk_ext : forall st st' l a, good st -> ext st st' -> a < len (ps_toks st) ->
  walk (ps_links st) a l -> walk (ps_links st') a l.
Proof.
  intros st st'. induction l as [|b l IH]; intros a Hg He Ha Hw; [exact I|]. destruct Hw as [Hab Hw].
  pose proof (proj2 Hg a b Hab). split; [unfold edge in *; rewrite (proj2 He a Ha); exact Hab|].
  apply IH; auto. lia.
Qed.

Lemma parsed_placed : forall st st1 st2 v L, good st -> good st2 -> parsed st st1 v L -> ext st1 st2 ->
  (forall w u, L w -> L (w ++ u) -> w <> [] -> u = []) ->
  placed (ps_links st2) (len (ps_toks st)) (len (ps_toks st1))
    {| sg_first := vs_start v; sg_last := vs_end v; sg_begin := 0; sg_end := 0 |}.
Proof.
  intros st st1 st2 v L Hg0 Hg2 ((Hg1 & Hfull) & He01 & Hs & Hen & Hsp) He12 Hpf.
  pose proof (ext_trans _ _ _ He01 He12) as He02.
  constructor; cbn [sg_first sg_last]; auto.
  - apply ext_len. exact He01.
  - intros x y Hxy. pose proof (proj2 Hg2 x y Hxy) as Hlt. pose proof (ext_len _ _ He01). pose proof (ext_len _ _ He12).
    split; intros Hx.
    + assert (Hxy1 : edge (ps_links st1) x y) by (unfold edge in *; rewrite <- (proj2 He12 x) by lia; exact Hxy).
      pose proof (proj2 Hg1 x y Hxy1). lia.
    + destruct (le_lt_dec (len (ps_toks st)) x) as [H1|H1]; [lia|]. exfalso.
      assert (Hxy0 : edge (ps_links st) x y) by (unfold edge in *; rewrite <- (proj2 He02 x) by lia; exact Hxy).
      pose proof (proj2 Hg0 x y Hxy0). lia.
  - intros t Ht. destruct (Hfull t Ht) as [(f & l & Hf & Hw & E) _]. exists f, l. split; [exact Hf|]. split; [|exact E].
    apply (walk_ext st1 st2); auto. apply Hs in Hf. lia.
  - intros t Ht. destruct (Hfull t Ht) as [_ (l & Hw & E)]. exists l. split; [|exact E].
    apply (walk_ext st1 st2); auto. lia.
  - intros x Hx. pose proof (Hen x Hx) as Hxi. rewrite (proj2 He12 x) by lia.
    destruct (nxt (ps_links st1) x) as [|y ys] eqn:En; [reflexivity|]. exfalso.
    assert (Hxy : edge (ps_links st1) x y) by (unfold edge; rewrite En; now left).
    pose proof (proj2 Hg1 x y Hxy) as Hy.
    destruct (Hfull x Hxi) as [(f & l & Hf & Hw & E) _]. destruct (Hfull y ltac:(lia)) as [_ (l' & Hw' & E')].
    assert (H1 : L (map (text_of st1) (f :: l))).
    { apply (Hsp _). exists f, l. rewrite E. auto. }
    assert (H2 : L (map (text_of st1) (f :: l) ++ map (text_of st1) (y :: l'))).
    { apply (Hsp _). exists f, (l ++ y :: l'). split; [exact Hf|]. split; [|split].
      - apply walk_app. rewrite E. auto.
      - rewrite last_app_cons. exact E'.
      - rewrite <- map_app. reflexivity. }
    specialize (Hpf _ _ H1 H2 ltac:(discriminate)). discriminate.
Qed.

Lemma load_lines_ok : forall fuel lines als st, good st ->
  Forall2 (fun l a => lex l = print_alts a /\ ok_line a /\ prefix_free a /\ len (print_alts a) < fuel) lines als ->
  exists st' segs, load_lines fuel lines st = Ok (st', segs) /\ good st' /\ ext st st' /\
    (forall st2, good st2 -> ext st' st2 -> chained (ps_links st2) (len (ps_toks st)) segs (len (ps_toks st'))) /\
    Forall2 (fun s a => forall w, spells st' (sg_first s) (sg_last s) w <-> w <> [] /\ says_alts a w) segs als.
Proof.
  intros fuel lines als st Hg H. revert st Hg. induction H as [|l a lines als (Hlex & Hok & Hpf & Hf) H IH]; intros st Hg; cbn [load_lines].
  - exists st, []. split; [reflexivity|]. split; [exact Hg|]. split; [apply ext_refl|]. split; [|constructor].
    intros st2 _ _. cbn. lia.
  - destruct (parse_correct None false a fuel st Hok Hf Hg) as (st1 & v & Hp & Hpd & _).
    unfold parse_line. rewrite filter_space_lex, Hlex, Hp. cbn [rbind].
    destruct (IH st1 (proj1 (proj1 Hpd))) as (st2 & segs & Hl & Hg2 & He2 & Hch & Hsp). rewrite Hl. cbn [rbind].
    eexists st2, _. split; [reflexivity|]. split; [exact Hg2|].
    split; [apply (ext_trans _ st1); [exact (proj1 (proj2 Hpd))|exact He2]|]. split.
    + intros st3 Hg3 He3. exists (len (ps_toks st1)). split; [|apply Hch; assumption].
      apply (parsed_placed st st1 st3 v (says_alts a) Hg Hg3 Hpd); [apply (ext_trans _ st2); assumption|exact Hpf].
    + constructor; [|exact Hsp]. cbn [sg_first sg_last]. intros w. destruct Hpd as ((Hg1 & _) & _ & Hs & Hen & Hspell).
      rewrite <- Hspell. apply spells_ext; auto; eapply within_weak; eauto; lia.
Qed.

Lemma good_empty : good empty_state.
Proof. split; [intros a b; reflexivity|intros x y []]. Qed.

Theorem load_speech_ok : forall fuel lines als,
  Forall2 (fun l a => lex l = print_alts a /\ ok_line a /\ prefix_free a /\ len (print_alts a) < fuel) lines als ->
  exists st segs, load_speech fuel lines = Ok (st, segs) /\ good st /\
    linked_speech (ps_links st) None segs /\ len segs = len lines /\
    forall s, In s segs -> within 0 (len (ps_toks st)) (sg_first s).
Proof.
  intros fuel lines als H. destruct (load_lines_ok fuel lines als empty_state good_empty H) as (st & segs & Hl & Hg & _ & Hch & Hsp).
  unfold load_speech. rewrite Hl. cbn [rbind]. eexists _, segs. split; [reflexivity|]. cbn [ps_toks ps_links].
  specialize (Hch st Hg (ext_refl st)). destruct (attach_segments_spec segs (ps_links st) None) as [Hm He].
  specialize (Hm (proj1 Hg)).
  assert (Hup : forall x y, edge (attach_segments (ps_links st) None segs) x y -> x < y < len (ps_toks st)).
  { intros x y Hxy. apply He in Hxy. destruct Hxy as [Hxy|Hxy]; [apply Hg; exact Hxy|].
    eapply joins_lt; [exact Hch| |exact Hxy]. discriminate. }
  split; [split; [exact Hm|exact Hup]|]. split; [|split].
  - apply (linked_from (ps_links st) _ segs 0 (len (ps_toks st)) None Hch); auto.
    + intros x y Hxy. apply He. now left.
    + intros x y Hxy. apply Hup in Hxy. lia.
    + discriminate.
  - rewrite (Forall2_len _ _ _ _ _ H). apply (Forall2_len _ _ _ _ _ Hsp).
  - intros s Hs. destruct (chained_in _ _ _ _ s Hch Hs) as (a & b & _ & Hb & Hpl). intros x Hx.
    apply (pl_first _ _ _ _ Hpl) in Hx. lia.
Qed.

(** ** Times of the words *)
Fixpoint flat (ws : list string) : seqn := match ws with [] => SNil | w :: r => SCons (IWord w) (flat r) end.
Lemma flat_print : forall ws, print_seq (flat ws) = ws.
Proof. induction ws; cbn; congruence. Qed.
Lemma flat_ok : forall ws, Forall plain ws -> ok_seq (flat ws).
Proof. intros ws H. induction H; cbn; auto. Qed.
Lemma flat_items : forall ws, map content (items (flat ws)) = map (fun w => [w]) ws.
Proof. induction ws; cbn; congruence. Qed.

Fixpoint toks_from (x : extended) (opt : bool) (n i : nat) (ws : list string) : list atok :=
  match ws with [] => [] | w :: r => make_token x opt n i w :: toks_from x opt n (S i) r end.

Lemma add_step_toks : forall st f p o v, ps_toks (fst (fst (fst (add_step st f p o v)))) = ps_toks st.
Proof. intros st f [p|] o v; reflexivity. Qed.

Lemma loop_flat : forall pa x opt n ws i st f p o st' v, Forall plain ws ->
  seq_loop pa x opt n i (map (fun w => [w]) ws) st f p o = Ok (st', v) ->
  ps_toks st' = ps_toks st ++ toks_from x opt n i ws.
Proof.
  intros pa x opt n. induction ws as [|w r IH]; intros i st f p o st' v H E; cbn [map seq_loop toks_from] in *.
  - injection E as <- _. symmetry. apply app_nil_r.
  - inversion H as [|? ? Hw Hr]; subst.
    assert (E0 : (String.eqb w EmptyString || String.eqb w "@")%bool = false).
    { destruct Hw as (H1 & _ & _ & _ & H2). apply String.eqb_neq in H1, H2. rewrite H1, H2. reflexivity. }
    rewrite E0 in E. cbn [add_token] in E.
    match type of E with context [add_step ?a ?b ?c ?d ?e] => pose proof (add_step_toks a b c d e) as T; destruct (add_step a b c d e) as [[[st2 f2] p2] o2] end.
    cbn [fst ps_toks] in T. apply IH in E; [|exact Hr]. rewrite E, T, <- app_assoc. reflexivity.
Qed.

Lemma toks_from_nth : forall x opt n ws i k w, nth_error ws k = Some w ->
  nth_error (toks_from x opt n i ws) k = Some (make_token x opt n (i + k) w).
Proof.
  intros x opt n. induction ws as [|u r IH]; intros i [|k] w E; cbn in *; try discriminate.
  - injection E as <-. rewrite Nat.add_0_r. reflexivity.
  - rewrite (IH (S i) k w E). f_equal. f_equal. lia.
Qed.
Lemma toks_from_len : forall x opt n ws i, len (toks_from x opt n i ws) = len ws.
Proof. intros x opt n. induction ws; intros i; cbn; auto. Qed.

Lemma parse_flat : forall fuel x opt ws st st' v, Forall plain ws ->
  parse fuel x opt ws st = Ok (st', v) -> ps_toks st' = ps_toks st ++ toks_from x opt (len ws) 0 ws \/ ws = [].
Proof.
  intros [|fuel] x opt ws st st' v H E; [discriminate|]. destruct ws as [|w0 r0]; [now right|]. left.
  set (ws := w0 :: r0) in *. rewrite parse_S in E.
  assert (Hpl : pl_seq (flat ws)) by (apply ok_pl; apply flat_ok; exact H).
  assert (Hsep : separate_by_slash ws = [ws]).
  { pose proof (separate_print (AOne (flat ws)) Hpl) as S. cbn [print_alts seqs map] in S. rewrite flat_print in S. exact S. }
  rewrite Hsep in E.
  assert (Ht : tokenise_words ws = map (fun w => [w]) ws).
  { pose proof (tokenise_print (flat ws) Hpl) as T. rewrite flat_print, flat_items in T. exact T. }
  rewrite Ht, map_length in E. eapply loop_flat; eassumption.
Qed.
