(** Proofs about the reading of RTTM files: closing, linking and expanding the speeches. *)
From Coq Require Import String List NArith ZArith Arith Bool Ascii Lia Sorted.
From Verif Require Import Base Store_Model Store_Proofs Segm_Model Graph_Model Links_Model Links_Spec Links_Proofs Token_Model Alt_Model Alt_Spec Alt_Proofs Alt_Proofs2 AsTrn_Model AsTrn_Spec AsTrn_Proofs AsStm_Model AsStm_Spec AsStm_Proofs1 AsStm_Proofs2 Rttm_Model Rttm_Spec Rttm_Proofs1 Rttm_Proofs2 Rttm_Proofs3 Rttm_Proofs4.
Import ListNotations.
Local Open Scope res_scope.
Local Notation length := List.length.

(** ** Consecutive tokens *)
Lemma consec_cons z a l x y : consec (z :: a :: l) x y <-> (x = z /\ y = a) \/ consec (a :: l) x y.
Proof.
  unfold consec. split.
  - intros ([|b c1] & c2 & E); cbn [app] in E; inversion E as [[E1 E2]]; [left; auto|]. right. exists c1, c2. exact E2.
  - intros [(-> & ->)|(c1 & c2 & E)]; [exists [], l; reflexivity|]. exists (z :: c1), c2. rewrite E. reflexivity.
Qed.
Lemma consec_one z x y : ~ consec [z] x y.
Proof. intros H. apply consec_small in H. cbn in H. lia. Qed.
Lemma consec_none x y : ~ consec [] x y.
Proof. intros H. apply consec_small in H. cbn in H. lia. Qed.
Lemma consec_app l : forall a R x y, consec ((a :: l) ++ R) x y <-> consec (a :: l) x y \/ consec (last l a :: R) x y.
Proof.
  induction l as [|b l IH]; intros a R x y.
  - cbn [app last]. split; [auto|intros [K|K]; [destruct (consec_one _ _ _ K)|exact K]].
  - change ((a :: b :: l) ++ R) with (a :: b :: (l ++ R)). rewrite consec_cons. change (b :: l ++ R) with ((b :: l) ++ R). rewrite IH, consec_cons, last_cons. tauto.
Qed.
Lemma consec_joins segs cs : Forall2 seg_is segs cs -> forall x y,
  (forall p z, sg_last p = [z] -> consec (z :: concat cs) x y <-> (exists c, In c cs /\ consec c x y) \/ joins (Some p) segs x y)
  /\ (consec (concat cs) x y <-> (exists c, In c cs /\ consec c x y) \/ joins None segs x y).
Proof.
  induction 1 as [|s c segs cs SI H IH]; intros x y.
  - cbn [concat joins]. split.
    + intros p z _. split; [intros K; destruct (consec_one _ _ _ K)|intros [(c & [] & _)|[]]].
    + split; [intros K; destruct (consec_none _ _ K)|intros [(c & [] & _)|[]]].
  - destruct (IH x y) as (IH1 & IH2). destruct c as [|a l]; cbn [seg_is] in SI; destruct SI as (SF & SL).
    + assert (SE : seg_empty s = true) by (unfold seg_empty; rewrite SF; reflexivity). cbn [concat app joins]. rewrite SE.
      assert (EX : (exists c, In c ([] :: cs) /\ consec c x y) <-> exists c, In c cs /\ consec c x y).
      { split; [intros (c & [<-|I] & K); [destruct (consec_none _ _ K)|eauto]|intros (c & I & K); exists c; split; [right; exact I|exact K]]. }
      split; [intros p z HP; rewrite EX; apply IH1, HP|rewrite EX; exact IH2].
    + assert (SE : seg_empty s = false) by (unfold seg_empty; rewrite SF, SL; reflexivity). cbn [concat joins]. rewrite SE.
      assert (EX : (exists c, In c ((a :: l) :: cs) /\ consec c x y) <-> consec (a :: l) x y \/ exists c, In c cs /\ consec c x y).
      { split; [intros (c & [<-|I] & K); [auto|eauto]|intros [K|(c & I & K)]; [exists (a :: l); split; [left; reflexivity|exact K]|exists c; split; [right; exact I|exact K]]]. }
      specialize (IH1 s (last l a) SL). split.
      * intros p z HP. rewrite EX. change (z :: (a :: l) ++ concat cs) with (z :: a :: (l ++ concat cs)). rewrite consec_cons. change (a :: l ++ concat cs) with ((a :: l) ++ concat cs). rewrite consec_app, IH1, HP, SF. cbn [In].
        split; [intros [(-> & ->)|[K|[K|K]]]; auto|intros [[K|K]|[([<-|[]] & [<-|[]])|K]]; auto].
      * rewrite EX, consec_app, IH1. tauto.
Qed.
Lemma consec_in c x y : consec c x y -> In x c /\ In y c.
Proof. intros (c1 & c2 & ->). rewrite !in_app_iff. cbn [In]. auto. Qed.
Lemma consec_fun c x y z : NoDup c -> consec c x y -> consec c x z -> y = z.
Proof.
  induction c as [|a [|b c] IH]; intros ND H K; [destruct (consec_none _ _ H)|destruct (consec_one _ _ _ H)|]. inversion ND as [|? ? NI ND']; subst.
  apply consec_cons in H. apply consec_cons in K. destruct H as [(-> & ->)|H], K as [(K1 & K2)|K]; [congruence|destruct NI; exact (proj1 (consec_in _ _ _ K))|subst; destruct NI; exact (proj1 (consec_in _ _ _ H))|exact (IH ND' H K)].
Qed.
Lemma consec_lt c x y : StronglySorted lt c -> consec c x y -> x < y.
Proof.
  intros S (c1 & c2 & ->). induction c1 as [|a c1 IH]; cbn [app] in S; inversion S as [|? ? S1 F]; subst; [inversion F; assumption|exact (IH S1)].
Qed.
Lemma sorted_nodup c : StronglySorted lt c -> NoDup c.
Proof. induction 1 as [|a c S IH F]; constructor; [|exact IH]. intros K. rewrite Forall_forall in F. specialize (F a K). lia. Qed.
Lemma nodup_join {A} (l r : list A) : NoDup l -> NoDup r -> (forall x, In x l -> ~ In x r) -> NoDup (l ++ r).
Proof.
  intros NL NR. induction NL as [|a l NI NL IH]; intros H; [exact NR|]. cbn [app]. constructor; [|apply IH; intros; apply H; right; assumption].
  rewrite in_app_iff. intros [K|K]; [exact (NI K)|exact (H a (or_introl eq_refl) K)].
Qed.
Lemma concat_concat' {A} (l : list (list (list A))) : concat (concat l) = concat (map (@concat A) l).
Proof. induction l as [|a l IH]; [reflexivity|]. cbn [concat map]. rewrite concat_app, IH. reflexivity. Qed.

Lemma link_speech_ok h speech : (mutual h -> mutual (link_speech h speech)) /\ forall x y, edge (link_speech h speech) x y <-> edge h x y \/ joins None (map r_seg speech) x y.
Proof.
  unfold link_speech. destruct (Nat.ltb_spec 1 (length speech)) as [L|L]; [apply attach_segments_spec|]. split; [auto|]. intros x y.
  destruct speech as [|s [|? ?]]; cbn in L; [| |lia]; cbn [map joins]; [tauto|]. destruct (seg_empty (r_seg s)); tauto.
Qed.
Lemma link_all_ok : forall set h, (mutual h -> mutual (fold_left link_speech set h))
  /\ forall x y, edge (fold_left link_speech set h) x y <-> edge h x y \/ exists xs, In xs set /\ joins None (map r_seg xs) x y.
Proof.
  induction set as [|l set IH]; intros h; cbn [fold_left].
  - split; [auto|]. intros x y. split; [auto|intros [K|(xs & [] & _)]; exact K].
  - destruct (link_speech_ok h l) as (M1 & E1). destruct (IH (link_speech h l)) as (M2 & E2). split; [auto|]. intros x y. rewrite E2, E1. split.
    + intros [[K|K]|(xs & I & K)]; [auto|right; exists l; split; [left; reflexivity|exact K]|right; exists xs; split; [right; exact I|exact K]].
    + intros [K|(xs & [<-|I] & K)]; [auto|auto|right; exists xs; auto].
Qed.

Section Numbers.
Variable ms : str -> Z.
Local Notation tok_of := (tok_of ms).
Definition entry2 (toks : list atok) (k : nat) (y : turn * list lexeme) (x : rseg) (c : list nat) : Prop :=
  fields ms k (fst y) x /\ seg_is (r_seg x) c /\ map (fun i => nth i toks no_tok) c = map tok_of (snd y).
Lemma last_error_cons a l : last_error (a :: l) = Some (last l a).
Proof.
  unfold last_error. revert a. induction l as [|b l IH]; intros a; [reflexivity|]. rewrite last_cons. specialize (IH b). cbn [rev] in *. destruct (rev l ++ [b]); [discriminate|exact IH].
Qed.
Lemma last_map_cons {A B} (f : A -> B) l : forall a, last (map f l) (f a) = f (last l a).
Proof. induction l as [|b l IH]; intros a; [reflexivity|]. cbn [map]. rewrite !last_cons. apply IH. Qed.
Lemma chain_ends toks a l g ws : map (fun i => nth i toks no_tok) (a :: l) = map tok_of (g :: ws) -> nth a toks no_tok = tok_of g /\ nth (last l a) toks no_tok = tok_of (last ws g).
Proof.
  cbn [map]. intros E. injection E as E1 E2. split; [exact E1|]. rewrite <- (last_map_cons (fun i => nth i toks no_tok) l a). rewrite E1, E2. apply last_map_cons.
Qed.
Lemma close_speech_ok toks k ys xs cs : each (entry ms toks) k ys xs cs -> Forall (in_time ms) ys ->
  exists xs', close_speech (times_of toks) xs = Ok xs' /\ each (entry2 toks) k ys xs' cs.
Proof.
  induction 1 as [k|k (q, ws) ys x xs c cs EN H IH]; intros FT; [exists []; split; [reflexivity|constructor]|].
  inversion FT as [|? ? T1 T2]; subst. destruct (IH T2) as (xs' & EC & EA). destruct EN as (FX & PX & F1 & L1 & TX). cbn [fst snd] in FX, TX. cbn [close_speech].
  assert (S1 : exists s1, match r_prev x with Some n => add_last (times_of toks) (r_seg x) n | None => Ok (r_seg x) end = Ok s1 /\ seg_is s1 c /\ sg_begin s1 = sg_begin (r_seg x) /\ sg_end s1 = sg_end (r_seg x)).
  { rewrite PX. destruct c as [|a l]; [exists (r_seg x); cbn [last_error rev seg_is]; auto|]. rewrite last_error_cons. destruct ws as [|g ws]; [discriminate|]. destruct (chain_ends toks a l g ws TX) as (_ & E2). destruct T1 as (_ & T1).
    unfold add_last. cbn [times_of tk_end]. rewrite E2. cbn [Rttm_Proofs4.tok_of at_start at_dur]. destruct FX as (_ & _ & _ & _ & _ & _ & FE & _). rewrite FE.
    match goal with |- context[(?u <? ?v)%Z] => destruct (Z.ltb_spec u v); [lia|] end. rewrite andb_false_r. eexists. split; [reflexivity|]. cbn [seg_is sg_first sg_last sg_begin sg_end]. rewrite F1, L1. auto. }
  destruct S1 as (s1 & -> & SI & SB & SE). cbn [rbind]. rewrite EC. cbn [rbind]. eexists. split; [reflexivity|]. constructor; [|exact EA]. split; [|split; [exact SI|exact TX]].
  cbn [fst]. destruct FX as (A1 & A2 & A3 & A4 & A5 & A6 & A7 & A8). unfold fields. cbn [with_seg r_src r_chan r_spkr r_line r_elem r_id r_seg]. rewrite SB, SE. auto 10.
Qed.
Lemma close_set_ok toks (T : str -> list (turn * list lexeme)) (css : str -> list (list nat)) : forall m : list (str * list rseg),
  (forall s l, In (s, l) m -> each (entry ms toks) 0 (T s) l (css s)) -> (forall s, Forall (in_time ms) (T s)) ->
  exists set, close_set (times_of toks) (map snd m) = Ok set /\ Forall2 (fun s xs => each (entry2 toks) 0 (T s) xs (css s)) (map fst m) set.
Proof.
  induction m as [|(s, l) m IH]; intros HM HT; [exists []; split; [reflexivity|constructor]|]. cbn [map fst snd close_set].
  destruct (close_speech_ok _ _ _ _ _ (HM s l (or_introl eq_refl)) (HT s)) as (xs & -> & EA). cbn [rbind]. destruct IH as (set & -> & F); [intros; apply HM; right; assumption|exact HT|]. cbn [rbind]. exists (xs :: set). split; [reflexivity|]. constructor; assumption.
Qed.
Lemma each_seg_is toks k ys xs cs : each (entry2 toks) k ys xs cs -> Forall2 seg_is (map r_seg xs) cs.
Proof. induction 1 as [|k y ys x xs c cs (_ & SI & _) H IH]; constructor; assumption. Qed.
Lemma each_words toks k ys xs cs : each (entry2 toks) k ys xs cs -> map (fun i => nth i toks no_tok) (concat cs) = map tok_of (concat (map snd ys)).
Proof. induction 1 as [|k y ys x xs c cs (_ & _ & TX) H IH]; [reflexivity|]. cbn [concat map]. rewrite !map_app, TX, IH. reflexivity. Qed.
Lemma each_split E : forall a k b xs cs, each E k (a ++ b) xs cs ->
  exists xs1 xs2 cs1 cs2, xs = xs1 ++ xs2 /\ cs = cs1 ++ cs2 /\ each E k a xs1 cs1 /\ each E (k + length a) b xs2 cs2.
Proof.
  induction a as [|y a IH]; intros k b xs cs H.
  - exists [], xs, [], cs. cbn [length]. rewrite Nat.add_0_r. repeat split; [constructor|exact H].
  - cbn [app] in H. inversion H as [|? ? ? x xs' c cs' H1 H2]; subst. destruct (IH _ _ _ _ H2) as (xs1 & xs2 & cs1 & cs2 & -> & -> & A & B). exists (x :: xs1), xs2, (c :: cs1), cs2. repeat (split; [reflexivity|]). split; [constructor; assumption|]. cbn [length]. replace (k + S (length a)) with (S k + length a) by lia. exact B.
Qed.

Lemma spaced_words l ws : spaced l ws -> forall w, In w ws -> word w.
Proof. induction 1 as [s B|s w0 B W0|s w0 c r ws B W0 BC S IH]; intros w H; [destruct H|destruct H as [<-|[]]; exact W0|destruct H as [<-|H]; [exact W0|exact (IH w H)]]. Qed.
Lemma word_named n l g : line_says n l (EWord g) -> g_word g <> [].
Proof. intros LS. inversion LS as [|ty src chan b d w k spkr conf more HD SP SH KE E2| |]; subst. cbn [g_word]. destruct (spaced_words _ _ SP w) as (NE & _); [cbn; auto 10|exact NE]. Qed.
Lemma words_named : forall n ls es, lines_say n ls es -> forall g, In (EWord g) es -> g_word g <> [].
Proof.
  induction 1 as [n|n l ls e es LS H IH]; intros g HI; [destruct HI|]. destruct HI as [->|HI]; [exact (word_named n l g LS)|exact (IH g HI)].
Qed.
Lemma said_in g : forall es b, In g (said b es) -> In (EWord g) es.
Proof.
  induction es as [|e es IH]; intros b H; [destruct H|]. cbn [said] in H. destruct e as [q|g'|]; [right; exact (IH _ H)| |right; exact (IH _ H)].
  destruct (in_dec (list_eq_dec N.eq_dec) (g_spkr g') b); [destruct H as [->|H]; [left; reflexivity|]|]; right; exact (IH _ H).
Qed.
Lemma chars_named g : g_word g <> [] -> chars g <> [].
Proof. intros NE. unfold chars. destruct (among _ OPTIONAL); [discriminate|]. destruct (g_word g); [congruence|discriminate]. Qed.

Section Read.
Variables (o : options) (fuel : nat) (es : list event) (css : str -> list (list nat)) (names : list str) (set : list (list rseg)) (st0 : pstate).
Let W := said [] es.
Let own := map g_spkr W.
Hypotheses (TOKS : ps_toks st0 = map tok_of W) (POS : forall s, concat (css s) = pos s own) (MUT : mutual (ps_links st0))
  (EDGES : forall x y, edge (ps_links st0) x y <-> exists s, consec (pos s own) x y)
  (SORTED : StronglySorted before names) (NAMES : forall s, In s names <-> turns s es <> [])
  (EACH : Forall2 (fun s xs => each (entry2 (ps_toks st0)) 0 (turns s es) xs (css s)) names set)
  (COUNT : forall s, length (turns s es) = length (css s))
  (TIMES : forall s, Forall (in_time ms) (turns s es))
  (GOOD : Forall (fun g => g_word g <> [] /\ (0 <= ms (g_d g))%Z /\ readable o fuel g) W).
Lemma len0 : length (ps_toks st0) = length W.
Proof. rewrite TOKS. apply map_length. Qed.
Lemma own_len : length own = length W.
Proof. apply map_length. Qed.
Lemma tok_nth i : i < length W -> exists g, In g W /\ nth i (ps_toks st0) no_tok = tok_of g.
Proof.
  intros L. rewrite TOKS. destruct (nth_error W i) as [g|] eqn:E; [|apply nth_error_None in E; lia]. exists g. split; [exact (nth_error_In _ _ E)|]. apply nth_error_nth. apply map_nth_error. exact E.
Qed.
Lemma pos_low s x : In x (pos s own) -> x < length (ps_toks st0).
Proof. intros H. apply pos_in in H. rewrite own_len in H. rewrite len0. apply H. Qed.
Lemma wf0 : wf st0.
Proof. split; [exact MUT|]. intros x y E. apply EDGES in E. destruct E as (s & C). apply consec_in in C. split; apply (pos_low s); apply C. Qed.
Lemma forward0 x y : edge (ps_links st0) x y -> x < y.
Proof. intros E. apply EDGES in E. destruct E as (s & C). exact (consec_lt _ _ _ (pos_sorted s own) C). Qed.
Lemma self0 x : ~ edge (ps_links st0) x x.
Proof. intros E. apply forward0 in E. lia. Qed.
Lemma exact0 s c : (forall x y, consec c x y -> consec (pos s own) x y) -> exact_chain st0 c.
Proof.
  intros H c1 x y c2 E z. assert (C : consec (pos s own) x y) by (apply H; exists c1, c2; exact E). rewrite EDGES. split.
  - intros (u & K). assert (u = s). { pose proof (proj1 (consec_in _ _ _ C)) as A. pose proof (proj1 (consec_in _ _ _ K)) as B. apply pos_in in A, B. destruct A as (_ & <-), B as (_ & <-). reflexivity. } subst u. exact (consec_fun _ _ _ _ (sorted_nodup _ (pos_sorted s own)) K C).
  - intros ->. exists s. exact C.
Qed.
Lemma fine0 i : i < length (ps_toks st0) -> tok_fine o fuel st0 i.
Proof.
  intros L. rewrite len0 in L. destruct (tok_nth i L) as (g & IG & E). rewrite Forall_forall in GOOD. destruct (GOOD g IG) as (NE & D & R). unfold tok_fine. rewrite E, (source_tok ms). split; [apply chars_named, NE|]. split; [exact D|].
  intros text tk GT MK. apply (R (chars g) text tk); [apply written_iff; reflexivity|exact GT|apply marked_iff, MK].
Qed.
Lemma rd0 i g p : i < length (ps_toks st0) -> nth i (ps_toks st0) no_tok = tok_of g -> g_word g <> [] -> Rd o st0 st0 i p <-> word_reads o g p.
Proof.
  intros L E NE. unfold Rd, mk, rd, src. rewrite E, (source_tok ms). destruct (get_text_total o (chars g) (chars_named g NE)) as (text & tk & GT & _). rewrite GT. split.
  - intros [(_ & MK & (text' & tk' & a & x & GT' & EA & OKA & SA & NX & ->))|(NM & ->)].
    + injection GT' as <- <-. apply (wr_alts o g (chars g) text tk a x); [apply written_iff; reflexivity|exact GT|apply marked_iff, MK|exact EA|exact OKA|exact SA|exact NX].
    + apply (wr_plain o g (chars g) text tk); [apply written_iff; reflexivity|exact GT|]. intros K. apply NM. split; [exact L|apply marked_iff, K].
  - intros [s text' tk' WR GT' NX|s text' tk' a x WR GT' EX EA OKA SA NX]; apply written_iff in WR; subst s; rewrite GT in GT'; injection GT' as <- <-.
    + right. split; [|reflexivity]. intros (_ & MK). apply NX, marked_iff, MK.
    + left. split; [exact L|]. split; [apply marked_iff, EX|]. exists text, tk, a, x. auto 10.
Qed.
Lemma rd_words : forall c ws parts, map (fun i => nth i (ps_toks st0) no_tok) c = map tok_of ws -> (forall i, In i c -> i < length (ps_toks st0)) -> (forall g, In g ws -> g_word g <> []) ->
  Forall2 (Rd o st0 st0) c parts <-> Forall2 (word_reads o) ws parts.
Proof.
  induction c as [|i c IH]; intros [|g ws] parts E L NE; try discriminate; [split; intros K; inversion K; constructor|]. cbn [map] in E. injection E as E1 E2.
  assert (R : forall p, Rd o st0 st0 i p <-> word_reads o g p) by (intros p; apply rd0; [apply L; left; reflexivity|exact E1|apply NE; left; reflexivity]).
  assert (IH' : forall ps, Forall2 (Rd o st0 st0) c ps <-> Forall2 (word_reads o) ws ps) by (intros ps; apply IH; [exact E2|intros; apply L; right; assumption|intros; apply NE; right; assumption]).
  split; intros K; inversion K; subst; constructor; (apply R || apply IH'); assumption.
Qed.
Lemma item0 s k y x c : entry2 (ps_toks st0) k y x c -> In c (css s) -> in_time ms y -> (forall u v, consec c u v -> consec (pos s own) u v) -> item_ok st0 x c.
Proof.
  intros (FX & SI & TX) IC IT CC. assert (LOW : forall i, In i c -> i < length (ps_toks st0)) by (intros i Hi; apply (pos_low s); rewrite <- POS; apply in_concat; eauto).
  split; [exact SI|]. split; [|apply (exact0 s), CC]. destruct y as (q, ws). cbn [fst snd] in FX, TX. destruct FX as (_ & _ & _ & _ & _ & FB & FE & _). destruct c as [|a l]; cbn [seg_is] in SI; destruct SI as (SF & SL); unfold seg_fine; rewrite SF, SL.
  - split; intros x0 [].
  - destruct ws as [|g ws]; [discriminate|]. destruct (chain_ends _ a l g ws TX) as (E1 & E2). destruct IT as (I1 & I2). split; intros z [<-|[]].
    + split; [apply LOW; left; reflexivity|]. rewrite E1, FB. exact I1.
    + split; [apply LOW; clear; revert a; induction l as [|m l IH]; intros a; [left; reflexivity|rewrite last_cons; right; apply IH]|]. rewrite E2, FE. exact I2.
Qed.
Lemma items0 s xs : each (entry2 (ps_toks st0)) 0 (turns s es) xs (css s) -> Forall2 (item_ok st0) xs (css s).
Proof.
  intros EA. assert (CC : forall c, In c (css s) -> In c (css s) /\ forall u v, consec c u v -> consec (pos s own) u v).
  { intros c IC. split; [exact IC|]. intros u v K. rewrite <- POS. apply (consec_joins _ _ (each_seg_is _ _ _ _ _ EA) u v). left. exists c. auto. }
  assert (G : forall k ys xs cs, each (entry2 (ps_toks st0)) k ys xs cs -> Forall (in_time ms) ys -> (forall c, In c cs -> In c (css s) /\ forall u v, consec c u v -> consec (pos s own) u v) -> Forall2 (item_ok st0) xs cs).
  { induction 1 as [|k y ys x xs' c cs EN H IH]; intros T K; constructor.
    - inversion T; subst. destruct (K c (or_introl eq_refl)) as (K1 & K2). exact (item0 s k y x c EN K1 ltac:(assumption) K2).
    - inversion T; subst. apply IH; [assumption|]. intros d Hd. apply K. right. exact Hd. }
  exact (G _ _ _ _ EA (TIMES s) CC).
Qed.
Lemma names_pos s i : In i (pos s own) -> In s names.
Proof. intros H. apply NAMES. intros K. rewrite <- POS in H. pose proof (COUNT s) as L. rewrite K in L. destruct (css s); [destruct H|discriminate]. Qed.
Lemma all_tokens : concat (concat (map css names)) = concat (map (fun s => pos s own) names).
Proof. rewrite concat_concat', map_map. f_equal. apply map_ext. exact POS. Qed.
Lemma before_nodup (l : list str) : StronglySorted before l -> NoDup l.
Proof. induction 1 as [|a l S IH F]; constructor; [|exact IH]. intros K. rewrite Forall_forall in F. exact (before_irrefl a (F a K)). Qed.
Lemma nodup0 : NoDup (concat (concat (map css names))).
Proof.
  rewrite all_tokens. pose proof (before_nodup _ SORTED) as ND. clear - ND. induction names as [|s l IH]; [constructor|]. inversion ND as [|? ? NI ND']; subst. cbn [map concat]. apply nodup_join; [apply sorted_nodup, pos_sorted|exact (IH ND')|].
  intros x Hx K. apply in_concat in K. destruct K as (c & IC & IX). apply in_map_iff in IC. destruct IC as (u & <- & IU). apply pos_in in Hx, IX. destruct Hx as (_ & <-), IX as (_ & <-). exact (NI IU).
Qed.
Lemma expanded0 : exists st out D Sf Ef, expand_set o fuel st0 set = Ok (st, out) /\ inv o st0 st D Sf Ef /\ Forall2 (Forall2 (item_now D Sf Ef)) set out
  /\ (forall x, x < length (ps_toks st0) -> mk o st0 x = true -> In x D).
Proof.
  assert (IT : Forall2 (Forall2 (item_ok st0)) set (map css names)). { pose proof items0 as I0. clear - EACH I0. induction EACH as [|? ? ? ? H1 H2 IH]; cbn [map]; [constructor|]. constructor; [apply I0, H1|exact (IH H2)]. }
  destruct (expand_set_ok o fuel st0 fine0 set (map css names) IT nodup0 st0 [] (fun _ => []) (fun _ => []) (inv_first o st0 wf0 self0)) as (st & out & D & Sf & Ef & E & IV & F & HD & _).
  { intros x Hx. split; [|intros []]. rewrite all_tokens in Hx. apply in_concat in Hx. destruct Hx as (c & IC & IX). apply in_map_iff in IC. destruct IC as (u & <- & _). exact (pos_low u x IX). }
  exists st, out, D, Sf, Ef. split; [exact E|]. split; [exact IV|]. split; [exact F|]. intros x Hx MK. apply HD. right. split; [|exact MK]. rewrite all_tokens. apply in_concat.
  assert (IP : In x (pos (nth x own []) own)) by (apply pos_in; split; [rewrite own_len, <- len0; exact Hx|reflexivity]). exists (pos (nth x own []) own). split; [apply in_map_iff; exists (nth x own []); split; [reflexivity|exact (names_pos _ _ IP)]|exact IP].
Qed.
(** Reading from the first token of one segment to the last of another *)
Lemma span0 st D Sf Ef s pre a l post ws x1 z1 x2 z2 : inv o st0 st D Sf Ef -> (forall x, x < length (ps_toks st0) -> mk o st0 x = true -> In x D) ->
  concat (css s) = pre ++ (a :: l) ++ post -> map (fun i => nth i (ps_toks st0) no_tok) (a :: l) = map tok_of ws -> (forall g, In g ws -> g_word g <> []) ->
  sg_first (r_seg x1) = [a] -> sg_last (r_seg x2) = [last l a] -> item_now D Sf Ef x1 z1 -> item_now D Sf Ef x2 z2 ->
  forall w, reads st (sg_first (r_seg z1)) (sg_last (r_seg z2)) w <-> exists parts, Forall2 (word_reads o) ws parts /\ w = concat parts.
Proof.
  intros IV ALL EC TX NE F1 L2 (_ & N1) (_ & N2) w. destruct N1 as (N1 & _), N2 as (_ & N2 & _). rewrite F1 in N1. rewrite L2 in N2.
  assert (LOW : forall i, In i (a :: l) -> i < length (ps_toks st0)) by (intros i Hi; apply (pos_low s); rewrite <- POS, EC, !in_app_iff; auto).
  rewrite (reads_end o st0 st D Sf Ef (fun y => In y [a]) (fun y => In y [last l a]) _ _ w IV ALL).
  - rewrite (chain_says o st0 forward0 (concat (css s)) pre a l post w); [|apply (exact0 s); rewrite POS; auto|exact EC]. split; intros (parts & FP & ->); exists parts; (split; [|reflexivity]); apply (rd_words (a :: l) ws parts TX LOW NE); exact FP.
  - intros y [<-|[]]. apply LOW. left. reflexivity.
  - intros y [<-|[]]. apply LOW. clear. revert a. induction l as [|m l IH]; intros a; [left; reflexivity|rewrite last_cons; right; apply IH].
  - exact N1.
  - exact N2.
Qed.
End Read.
End Numbers.
