(** C106: alignments made by diff are dealt to the utterances without loss. *)
From Coq Require Import String List Arith ZArith NArith Bool Lia.
From Verif Require Import Base Text_Model Text_Spec Word_Model NetDp_Model Path_Model Pra_Spec Gdiff_Model Gdiff_Spec Gdiff_Proofs.
Import ListNotations.
Local Open Scope nat_scope.

(** The words aligned are those of the first alternatives. *)
Theorem C106_first_alternative : forall e t ws, asks e t ws -> words_of e t = Ok ws.
Proof. exact words_asked. Qed.
Print Assumptions C106_first_alternative.

Lemma moves e diff rws hws : side_by_side e diff -> Forall (ref_word e) (concat rws) -> Forall (hyp_word e) (concat hws) ->
  exists ms, flat_map ref_of ms = concat rws /\ flat_map hyp_of ms = concat hws /\ Forall2 shown ms (diff (concat rws) (concat hws)) /\ Forall (good e) ms.
Proof.
  intros SB FR FH. destruct (SB (concat rws) (concat hws)) as (ms & A & B & D).
  - eapply Forall_impl; [|exact FR]. intros w (P & _). exact P.
  - eapply Forall_impl; [|exact FH]. intros w (P & _). exact P.
  - exists ms. repeat (split; [assumption|]). apply moves_good; [rewrite A; exact FR|rewrite B; exact FH].
Qed.

(** Utterances with transcripts of both sides: if the last one has a word, everything diff has found is
    dealt to them; the reference words of each are its own. *)
Theorem C106_utterances : forall e diff utts rws hws,
  side_by_side e diff ->
  Forall2 (asks e) (map fst utts) rws -> Forall2 (says e) (map snd utts) hws ->
  lengths_fit 99 (map (@length N) (map fst utts)) -> last rws [] <> [] ->
  exists ms ps, align_trans e diff utts = Ok ps
    /\ flat_map ref_of ms = concat rws /\ flat_map hyp_of ms = concat hws
    /\ Forall2 shown ms (diff (concat rws) (concat hws)) /\ dealt ms rws ps.
Proof.
  intros e diff utts rws hws SB AS SY FIT NE. unfold align_trans.
  pose proof (proj1 (copies e _ _ 100 100 99 AS ltac:(left; auto)) FIT) as CP. unfold str in *. rewrite CP, (said_words e _ _ SY). cbn [rbind].
  destruct (moves e diff rws hws SB (asked_all e _ _ AS) (said_all e _ _ SY)) as (ms & A & B & D & G).
  destruct (deal_ok e _ _ ms _ AS NE D G A) as (mss & DL & E). rewrite map_length in E. exists ms, (map (map stp) mss).
  split; [exact E|]. split; [exact A|]. split; [exact B|]. split; [exact D|]. apply (deals_dealt e); assumption.
Qed.
Print Assumptions C106_utterances.

(** The same for a hypothesis that is not cut into utterances. *)
Theorem C106_text : forall e diff refs hyps rws hws,
  side_by_side e diff -> Forall2 (asks e) refs rws -> Forall2 (says e) hyps hws -> last rws [] <> [] ->
  exists ms ps, align_text e diff refs hyps = Ok ps
    /\ flat_map ref_of ms = concat rws /\ flat_map hyp_of ms = concat hws
    /\ Forall2 shown ms (diff (concat rws) (concat hws)) /\ dealt ms rws ps.
Proof.
  intros e diff refs hyps rws hws SB AS SY NE. unfold align_text. rewrite (stm_asked e _ _ AS), (said_words e _ _ SY). cbn [rbind].
  destruct (moves e diff rws hws SB (asked_all e _ _ AS) (said_all e _ _ SY)) as (ms & A & B & D & G).
  destruct (deal_ok e _ _ ms _ AS NE D G A) as (mss & DL & E). exists ms, (map (map stp) mss).
  split; [exact E|]. split; [exact A|]. split; [exact B|]. split; [exact D|]. apply (deals_dealt e); assumption.
Qed.
Print Assumptions C106_text.

(** The segments [seg] of a channel after which other segments follow. *)
Theorem C106_channel : forall e diff before seg after rws hs,
  side_by_side e diff -> Forall2 (asks e) seg rws -> Forall (hyp_word e) hs ->
  lengths_fit 99 (map (@length N) seg) -> last rws [] <> [] -> after <> [] ->
  exists ms ps, align_chan e diff (before ++ seg ++ after) (length before) (length before + length seg - 1) hs = Ok ps
    /\ flat_map ref_of ms = concat rws /\ flat_map hyp_of ms = hs
    /\ Forall2 shown ms (diff (concat rws) hs) /\ dealt ms rws ps.
Proof.
  intros e diff before seg after rws hs SB AS FH FIT NE NA. unfold align_chan. rewrite !app_length.
  assert (LS : 0 < length seg) by (destruct AS; [cbn [last] in NE; congruence|cbn [length]; lia]). assert (LA : 0 < length after) by (destruct after; [congruence|cbn [length]; lia]).
  assert (NN : length before + length seg - 1 <> length before + (length seg + length after)) by lia.
  rewrite (proj2 (Nat.eqb_neq _ _) NN). replace (length before + length seg - 1 + 1 - length before) with (length seg) by lia.
  rewrite skipn_app, skipn_all, Nat.sub_diag. cbn [app skipn]. rewrite firstn_app, firstn_all, Nat.sub_diag. cbn [firstn]. rewrite app_nil_r.
  rewrite (proj1 (copies e _ _ 100 100 99 AS ltac:(left; auto)) FIT). cbn [rbind].
  assert (CH : concat [hs] = hs) by apply app_nil_r.
  destruct (moves e diff rws [hs] SB (asked_all e _ _ AS)) as (ms & A & B & D & G); [rewrite CH; exact FH|]. rewrite CH in *.
  destruct (deal_chan_last e _ _ NN seg (length before) rws ms _ AS ltac:(lia) NE D G A) as (mss & DL & E). exists ms, (map (map stp) mss).
  split; [exact E|]. split; [exact A|]. split; [exact B|]. split; [exact D|]. apply (deals_dealt e); assumption.
Qed.
Print Assumptions C106_channel.

(** The segments of the last channel of the file: the words inserted after the last reference word, and
    only they, are dealt to no segment. *)
Theorem C106_last_channel : forall e diff before seg rws hs,
  side_by_side e diff -> Forall2 (asks e) seg rws -> Forall (hyp_word e) hs ->
  lengths_fit 99 (map (@length N) seg) ->
  exists ms lost ps, align_chan e diff (before ++ seg) (length before) (length before + length seg) hs = Ok ps
    /\ flat_map ref_of ms = concat rws /\ flat_map hyp_of ms ++ lost = hs
    /\ Forall2 shown (ms ++ map Extra lost) (diff (concat rws) hs) /\ dealt ms rws ps
    /\ (ms = [] \/ exists q m, ms = q ++ [m] /\ ref_of m <> []).
Proof.
  intros e diff before seg rws hs SB AS FH FIT. unfold align_chan. rewrite !app_length, Nat.eqb_refl.
  replace (length before + length seg - length before) with (length seg) by lia.
  rewrite skipn_app, skipn_all, Nat.sub_diag. cbn [app skipn]. rewrite firstn_all.
  rewrite (proj1 (copies e _ _ 100 100 99 AS ltac:(left; auto)) FIT). cbn [rbind].
  assert (CH : concat [hs] = hs) by apply app_nil_r.
  destruct (moves e diff rws [hs] SB (asked_all e _ _ AS)) as (ms & A & B & D & G); [rewrite CH; exact FH|]. rewrite CH in *.
  destruct (deal_chan_ok e (length before + length seg) (length before + length seg) seg (length before) rws ms (diff (concat rws) hs) AS) as (ms1 & ms2 & mss & -> & R2 & DL & EN & E); try assumption.
  { rewrite Nat.eqb_refl. lia. }
  assert (X : exists lost, ms2 = map Extra lost /\ flat_map hyp_of ms2 = lost).
  { clear - R2. induction ms2 as [|m ms2 IH]; [exists []; split; reflexivity|]. unfold refs_of in R2. cbn [flat_map] in R2. apply app_eq_nil in R2. destruct R2 as (Rm & R2).
    destruct (IH R2) as (lost & -> & F). destruct m; try discriminate Rm. exists (w :: lost). split; [reflexivity|]. cbn [flat_map hyp_of app]. rewrite F. reflexivity. }
  destruct X as (lost & -> & F). exists ms1, lost, (map (map stp) mss). split; [exact E|].
  rewrite !flat_map_app in A, B. rewrite F in B. unfold refs_of in R2. rewrite R2, app_nil_r in A. split; [exact A|]. split; [exact B|]. split; [exact D|].
  split; [apply (deals_dealt e); [apply Forall_app in G; apply G|exact DL]|exact EN].
Qed.
Print Assumptions C106_last_channel.

(** There is only one way to deal the moves. *)
Definition noted (s : option (list N) * option (list N) * eval) : list (list N) := match s with (Some a, _, _) => [a] | _ => [] end.
Lemma noted_side s : noted (texts s) = ref_side s.
Proof. destruct s as [[[a|] b] ev]; reflexivity. Qed.
Lemma noted_sides p : flat_map noted (map texts p) = flat_map ref_side p.
Proof. induction p as [|s p IH]; [reflexivity|]. cbn [map flat_map]. rewrite noted_side, IH. reflexivity. Qed.
Definition ended (l : list (option (list N) * option (list N) * eval)) : Prop := l = [] \/ exists q s, l = q ++ [s] /\ noted s <> [].
Lemma ends_ended p : ends_with_ref p -> ended (map texts p).
Proof.
  intros [->|(q & s & -> & X)]; [left; reflexivity|]. right. exists (map texts q), (texts s). split; [rewrite map_app; reflexivity|]. rewrite noted_side. exact X.
Qed.
Lemma same_prefix p d : ended (p ++ d) -> flat_map noted (p ++ d) = flat_map noted p -> d = [].
Proof.
  intros EN R. rewrite flat_map_app in R. assert (D : flat_map noted d = []) by (apply (f_equal (@length _)) in R; rewrite app_length in R; apply length_zero_iff_nil; lia).
  destruct d as [|x d]; [reflexivity|exfalso]. destruct (@exists_last _ (x :: d) ltac:(discriminate)) as (d' & s & Ed). rewrite Ed in *.
  rewrite flat_map_app in D. apply app_eq_nil in D. destruct D as (_ & D). cbn [flat_map] in D. rewrite app_nil_r in D.
  destruct EN as [Z|(q & s' & Eq & X)]; [apply (f_equal (@length _)) in Z; rewrite !app_length in Z; cbn [length] in Z; lia|].
  rewrite app_assoc in Eq. apply app_inj_tail in Eq. destruct Eq as (_ & ->). contradiction.
Qed.
Lemma same_cut p : forall q x y, p ++ x = q ++ y -> ended p -> ended q -> flat_map noted p = flat_map noted q -> p = q /\ x = y.
Proof.
  intros q x y E Ep Eq R.
  assert (H : exists d, p = q ++ d \/ q = p ++ d).
  { clear - E. revert q E. induction p as [|a p IH]; intros q E; [exists q; right; reflexivity|]. destruct q as [|b q]; [exists (a :: p); left; reflexivity|].
    injection E as -> E. destruct (IH q E) as (d & [->| ->]); exists d; [left|right]; reflexivity. }
  destruct H as (d & [->| ->]).
  - assert (d = []) as -> by (eapply same_prefix; eassumption). rewrite app_nil_r in *. split; [reflexivity|]. eapply app_inv_head, E.
  - assert (d = []) as -> by (eapply same_prefix; [eassumption|symmetry; exact R]). rewrite app_nil_r in *. split; [reflexivity|]. eapply app_inv_head, E.
Qed.
Theorem C106_only_one : forall ms refs ps qs, dealt ms refs ps -> dealt ms refs qs -> map (map texts) ps = map (map texts) qs.
Proof.
  intros ms refs ps qs (A & B & D) (A' & B' & D'). assert (E : concat (map (map texts) ps) = concat (map (map texts) qs)) by (rewrite <- !concat_map; congruence). clear A A'.
  revert ps qs B B' D D' E. induction refs as [|ws refs IH]; intros ps qs B B' D D' E.
  - inversion B. inversion B'. reflexivity.
  - inversion B as [|? p ? ps' P B1]; subst. inversion B' as [|? q ? qs' P' B1']; subst.
    destruct refs as [|ws' refs].
    + inversion B1; subst. inversion B1'; subst. cbn [map concat] in E. rewrite !app_nil_r in E. cbn [map]. rewrite E. reflexivity.
    + inversion B1 as [|? p' ? ps'' Q B2]; subst. inversion B1' as [|? q' ? qs'' Q' B2']; subst.
      cbn [removelast] in D, D'. change (map (map texts) (p :: p' :: ps'')) with (map texts p :: map (map texts) (p' :: ps'')) in *.
      change (map (map texts) (q :: q' :: qs'')) with (map texts q :: map (map texts) (q' :: qs'')) in *.
      change (concat (map texts p :: map (map texts) (p' :: ps'')) = concat (map texts q :: map (map texts) (q' :: qs''))) in E. cbn [concat] in E.
      destruct (same_cut _ _ _ _ E) as (E1 & E2); [apply ends_ended, (Forall_inv D)|apply ends_ended, (Forall_inv D')|rewrite !noted_sides; congruence|].
      rewrite E1. f_equal. apply IH; try assumption; [exact (Forall_inv_tail D)|exact (Forall_inv_tail D')].
Qed.
Print Assumptions C106_only_one.

(** The copy of the reference text stays in its buffer exactly if the lengths fit; otherwise the program
    writes past it. *)
Theorem C106_buffer : forall e diff utts rws, Forall2 (asks e) (map fst utts) rws ->
  ~ lengths_fit 99 (map (@length N) (map fst utts)) -> align_trans e diff utts = Undef.
Proof.
  intros e diff utts rws AS NF. unfold align_trans. pose proof (proj2 (copies e _ _ 100 100 99 AS ltac:(left; auto)) NF) as CP. unfold str in *. rewrite CP. reflexivity.
Qed.
Print Assumptions C106_buffer.

(** ** What does not hold *)
(** a diff that takes everything out and puts everything in *)
Definition simple_diff (rs hs : list (list N)) : list (list N) :=
  map (fun w => w ++ txt "  <") rs ++ map (fun w => txt "  > " ++ w) hs.
(** one that leaves the common beginning *)
Fixpoint better_diff (rs hs : list (list N)) : list (list N) :=
  match rs, hs with
  | r :: rs', h :: hs' => (if list_eq_dec N.eq_dec r h then r ++ txt "  " ++ h else r ++ txt "  | " ++ h) :: better_diff rs' hs'
  | _, _ => simple_diff rs hs
  end.
Lemma gaps n c : n <> 0 -> space c -> gap (repeat c n).
Proof. intros H S. split; [destruct n; [congruence|discriminate]|]. clear H. induction n; constructor; assumption. Qed.
Lemma space32 : space 32. Proof. left. reflexivity. Qed.
Lemma flat_map_map {A B D} (f : B -> list D) (g : A -> B) l : flat_map f (map g l) = flat_map (fun x => f (g x)) l.
Proof. induction l as [|a l IH]; [reflexivity|]. cbn [map flat_map]. rewrite IH. reflexivity. Qed.
Lemma flat_one {A} (l : list A) : flat_map (fun x => [x]) l = l.
Proof. induction l as [|a l IH]; [reflexivity|]. cbn [flat_map app]. rewrite IH. reflexivity. Qed.
Lemma flat_none {A B} (l : list A) : flat_map (fun _ => @nil B) l = [].
Proof. induction l as [|a l IH]; [reflexivity|]. exact IH. Qed.
Lemma simple_moves rs hs : exists ms, flat_map ref_of ms = rs /\ flat_map hyp_of ms = hs /\ Forall2 shown ms (simple_diff rs hs).
Proof.
  exists (map Gone rs ++ map Extra hs). rewrite !flat_map_app, !flat_map_map. cbn [ref_of hyp_of]. rewrite !flat_one, !flat_none, app_nil_r. split; [reflexivity|]. split; [reflexivity|].
  unfold simple_diff. apply Forall2_app.
  - induction rs as [|w rs IH]; [constructor|]. cbn [map]. constructor; [|exact IH]. apply (shown_gone w (repeat 32%N 2) []); [apply gaps; [discriminate|exact space32]|constructor].
  - induction hs as [|w hs IH]; [constructor|]. cbn [map]. constructor; [|exact IH].
    pose proof (shown_extra w (repeat 32%N 2) (repeat 32%N 1) [] ltac:(apply gaps; [discriminate|exact space32]) ltac:(apply gaps; [discriminate|exact space32]) ltac:(constructor)) as H.
    rewrite app_nil_r in H. exact H.
Qed.
Lemma better_moves rs : forall hs, exists ms, flat_map ref_of ms = rs /\ flat_map hyp_of ms = hs /\ Forall2 shown ms (better_diff rs hs).
Proof.
  induction rs as [|r rs IH]; intros hs; [destruct hs; apply simple_moves|]. destruct hs as [|h hs]; [apply simple_moves|].
  destruct (IH hs) as (ms & A & B & D). cbn [better_diff]. destruct (list_eq_dec N.eq_dec r h) as [<-|NE].
  - exists (Same r :: ms). cbn [flat_map ref_of hyp_of app]. rewrite A, B. split; [reflexivity|]. split; [reflexivity|]. constructor; [|exact D].
    pose proof (shown_same r (repeat 32%N 2) [] ltac:(apply gaps; [discriminate|exact space32]) ltac:(constructor)) as H. rewrite app_nil_r in H. exact H.
  - exists (Other r h :: ms). cbn [flat_map ref_of hyp_of app]. rewrite A, B. split; [reflexivity|]. split; [reflexivity|]. constructor; [|exact D].
    pose proof (shown_other r h (repeat 32%N 2) (repeat 32%N 1) [] ltac:(apply gaps; [discriminate|exact space32]) ltac:(apply gaps; [discriminate|exact space32]) ltac:(constructor)) as H. rewrite app_nil_r in H. exact H.
Qed.
Lemma better_side e : side_by_side e better_diff.
Proof. intros rs hs _ _. apply better_moves. Qed.

(** a way to see that a text is well formed *)
Lemma wf_text e w : forallb (fun c => (0 <? c) && (c <? 128))%N w = true -> well_formed e w.
Proof.
  intros H. rewrite forallb_forall in H. exists (map (fun c => [c]) w). split; [induction w as [|a w IH]; [reflexivity|]; cbn [map concat app]; rewrite <- IH; [reflexivity|intros x I; apply H; right; exact I]|].
  apply Forall_map, Forall_forall. intros c I. specialize (H c I). apply andb_true_iff in H. destruct H as (A & B). apply N.ltb_lt in A, B.
  exists c, []. split; [reflexivity|]. split; [destruct e; cbn; auto; left; split; lia || reflexivity|constructor; [lia|constructor]].
Qed.
Definition letters (w : list N) : bool :=
  negb (length w =? 0) && (length w <=? 61) && forallb (fun c => (64 <=? c) && (c <? 123))%N w.
Lemma letters_plain e w : letters w = true -> plain e w.
Proof.
  unfold letters. rewrite !andb_true_iff, negb_true_iff, Nat.eqb_neq, Nat.leb_le, forallb_forall. intros ((A & B) & F).
  assert (R : forall c, In c w -> (64 <= c < 123)%N) by (intros c I; specialize (F c I); apply andb_true_iff in F; rewrite N.leb_le, N.ltb_lt in F; exact F).
  split; [|split; [|split; [|split; [exact B|]]]].
  - apply wf_text, forallb_forall. intros c I. specialize (R c I). apply andb_true_iff. rewrite !N.ltb_lt. lia.
  - intros ->. apply A. reflexivity.
  - apply Forall_forall. intros c I. specialize (R c I). unfold space. lia.
  - destruct w as [|a w]; [discriminate|]. assert (I : In (last (a :: w) 0%N) (a :: w)).
    { clear. revert a. induction w as [|b w IH]; intros a; [left; reflexivity|]. right. exact (IH b). }
    specialize (R _ I). lia.
Qed.
Lemma letters_ref e w : letters w = true -> ref_word e w.
Proof.
  intros H. split; [exact (letters_plain e w H)|]. unfold letters in H. rewrite !andb_true_iff, forallb_forall in H. destruct H as ((A & _) & F).
  destruct w as [|a w]; [discriminate|]. specialize (F a (or_introl eq_refl)). apply andb_true_iff in F. rewrite N.leb_le, N.ltb_lt in F. cbn [hd In].
  split; [intros [X|[X|[X|[]]]]; lia|]. split; intros X; injection X as -> _; lia.
Qed.
Lemma letters_hyp e w : letters w = true -> hyp_word e w.
Proof. intros H. split; [exact (letters_plain e w H)|]. destruct (letters_ref e w H) as (_ & _ & _ & X). exact X. Qed.
Lemma spelled_one w : spelled w [w].
Proof. apply (spelled_last [] w). constructor. Qed.
Lemma spelled_two w c r ws : blank c -> spelled (c :: r) ws -> spelled (w ++ c :: r) (w :: ws).
Proof. intros H S. apply (spelled_more [] w c r ws); [constructor|exact H|exact S]. Qed.
Lemma asks_word e w : letters w = true -> w <> [64%N] -> asks e w [w].
Proof.
  intros L N. exists [Plain w]. split; [constructor; [apply letters_ref, L|constructor]|]. split; [apply spelled_one|]. cbn [flat_map chosen filter].
  destruct (list_eq_dec N.eq_dec w [64%N]); [contradiction|reflexivity].
Qed.
Lemma asks_nothing e : asks e [] [].
Proof. exists []. split; [constructor|]. split; [apply spelled_end; constructor|reflexivity]. Qed.
Lemma says_word e w : letters w = true -> says e w [w].
Proof. intros L. split; [constructor; [apply letters_hyp, L|constructor]|apply spelled_one]. Qed.

(** With a last utterance without reference words its insertions are lost. *)
Theorem C106_empty_last_refuted : exists e diff utts rws hws ps,
  side_by_side e diff /\ Forall2 (asks e) (map fst utts) rws /\ Forall2 (says e) (map snd utts) hws
  /\ lengths_fit 99 (map (@length N) (map fst utts))
  /\ align_trans e diff utts = Ok ps /\ flat_map (flat_map (fun s => match texts s with (_, Some b, _) => [b] | _ => [] end)) ps <> concat hws.
Proof.
  exists ASCII, better_diff, [(txt "the", txt "the"); ([], txt "cat")], [[txt "the"]; []], [[txt "the"]; [txt "cat"]]. eexists.
  split; [apply better_side|]. split; [constructor; [apply asks_word; [reflexivity|discriminate]|constructor; [apply asks_nothing|constructor]]|].
  split; [constructor; [apply says_word; reflexivity|constructor; [apply says_word; reflexivity|constructor]]|].
  split; [cbn; left; split; [lia|left; split; [lia|exact I]]|]. split; [vm_compute; reflexivity|]. vm_compute. discriminate.
Qed.
Print Assumptions C106_empty_last_refuted.

(** In the last channel of an STM file the insertions after its last reference word are lost. *)
Theorem C106_last_channel_refuted : exists e diff seg rws hs ps,
  side_by_side e diff /\ Forall2 (asks e) seg rws /\ Forall (hyp_word e) hs /\ lengths_fit 99 (map (@length N) seg) /\ last rws [] <> []
  /\ align_chan e diff seg 0 (length seg) hs = Ok ps /\ flat_map (flat_map (fun s => match texts s with (_, Some b, _) => [b] | _ => [] end)) ps <> hs.
Proof.
  exists ASCII, better_diff, [txt "the"], [[txt "the"]], [txt "the"; txt "cat"]. eexists.
  split; [apply better_side|]. split; [constructor; [apply asks_word; [reflexivity|discriminate]|constructor]|].
  split; [constructor; [apply letters_hyp; reflexivity|constructor; [apply letters_hyp; reflexivity|constructor]]|].
  split; [cbn; left; split; [lia|exact I]|]. split; [discriminate|]. split; [vm_compute; reflexivity|]. vm_compute. discriminate.
Qed.
Print Assumptions C106_last_channel_refuted.

(** Lines that end with carriage return and newline: the return belongs to the last word of the text, but
    not to the field of the line; the first utterance takes everything. *)
Theorem C106_carriage_return_refuted : exists ps,
  align_trans ASCII better_diff [(txt "a" ++ [13%N; 10%N], txt "a" ++ [13%N; 10%N]); (txt "b" ++ [13%N; 10%N], txt "b" ++ [13%N; 10%N])] = Ok ps
  /\ map (map texts) ps = [[(Some (txt "a"), Some (txt "a"), PCorr); (Some (txt "b"), Some (txt "b"), PCorr)]; []].
Proof. eexists. split; vm_compute; reflexivity. Qed.
Print Assumptions C106_carriage_return_refuted.

(** A reference word "<" that was not recognised counts as right, a hypothesis word ">" that was inserted
    too. *)
Theorem C106_marks_refuted : (exists l, shown (Gone (txt "<")) l
    /\ process_line ASCII l = Ok (txt "<", (Some (wd (txt "<")), Some (wd (txt "<")), PCorr)))
  /\ (exists l, shown (Extra (txt ">")) l
    /\ process_line ASCII l = Ok (txt ">", (Some (wd (txt ">")), Some (wd (txt ">")), PCorr))).
Proof.
  split.
  - exists (txt "<  <"). split; [apply (shown_gone (txt "<") (repeat 32%N 2) []); [apply gaps; [discriminate|exact space32]|constructor]|vm_compute; reflexivity].
  - exists (txt "  > >"). split; [apply (shown_extra (txt ">") (repeat 32%N 2) (repeat 32%N 1) []); [apply gaps; [discriminate|exact space32]|apply gaps; [discriminate|exact space32]|constructor]|vm_compute; reflexivity].
Qed.
Print Assumptions C106_marks_refuted.

(** Of a choice within a choice more than the first alternative is aligned. *)
Theorem C106_nested_refuted : words_of ASCII (txt "{ a { b / c } / d }") = Ok [txt "a"; txt "b"; txt "/"; txt "d"].
Proof. vm_compute. reflexivity. Qed.
Print Assumptions C106_nested_refuted.

(** A reference of exactly 100 bytes is written past the buffer. *)
Theorem C106_hundred_refuted : exists utts rws, Forall2 (asks ASCII) (map fst utts) rws
  /\ (forall diff, align_trans ASCII diff utts = Undef) /\ map (@length N) (map fst utts) = [100].
Proof.
  set (w := repeat 97%N 50). set (t := w ++ 32%N :: repeat 97%N 49).
  exists [(t, [])], [[w; repeat 97%N 49]]. assert (A : asks ASCII t [w; repeat 97%N 49]).
  { exists [Plain w; Plain (repeat 97%N 49)]. split; [apply Forall_cons; [apply letters_ref; reflexivity|apply Forall_cons; [apply letters_ref; reflexivity|constructor]]|].
    split; [|reflexivity]. apply (spelled_more [] w 32%N); [constructor|left; reflexivity|]. apply (spelled_last [32%N]). constructor; [left; reflexivity|constructor]. }
  split; [constructor; [exact A|constructor]|]. split; [|reflexivity]. intros diff. apply (C106_buffer _ _ _ [[w; repeat 97%N 49]]); [constructor; [exact A|constructor]|].
  cbn. intros [(X & _)|(X & _)]; lia.
Qed.
Print Assumptions C106_hundred_refuted.

(** diff shows 61 bytes of a word; a longer word is not found again, and the first utterance takes the
    lines of the others. *)
Definition cut_diff (rs hs : list (list N)) : list (list N) := better_diff (map (firstn 61) rs) (map (firstn 61) hs).
Theorem C106_long_word_refuted : exists ps, align_trans ASCII cut_diff [(repeat 97%N 62, repeat 97%N 62); (txt "b", txt "b")] = Ok ps
  /\ map (map texts) ps = [[(Some (repeat 97%N 61), Some (repeat 97%N 61), PCorr); (Some (txt "b"), Some (txt "b"), PCorr)]; []].
Proof. eexists. split; vm_compute; reflexivity. Qed.
Print Assumptions C106_long_word_refuted.

(** ** A case *)
Definition two : list (list N * list N) :=
  [(txt "the { cat / dog } sat", txt "the dog sat"); (txt "on a mat", txt "down a mat there")].
Example two_asks : Forall2 (asks UTF8) (map fst two) [[txt "the"; txt "cat"; txt "sat"]; [txt "on"; txt "a"; txt "mat"]].
Proof.
  apply Forall2_cons; [|apply Forall2_cons; [|constructor]].
  - exists [Plain (txt "the"); Choice [txt "cat"] [[txt "dog"]]; Plain (txt "sat")]. split; [do 4 (apply Forall_cons; [apply letters_ref; reflexivity|]); constructor|].
    split; [|reflexivity]. unfold two. cbn [fst map]. cbn.
    do 6 (apply (spelled_two [_]) || apply (spelled_two [_; _; _]) || apply (spelled_more [32%N] [_]) || apply (spelled_more [32%N] [_; _; _]); try (left; reflexivity); try (constructor; [left; reflexivity|constructor])).
    apply (spelled_last [32%N]). constructor; [left; reflexivity|constructor].
  - exists [Plain (txt "on"); Plain (txt "a"); Plain (txt "mat")]. split; [do 3 (apply Forall_cons; [apply letters_ref; reflexivity|]); constructor|].
    split; [|reflexivity]. cbn. apply (spelled_two [_; _]); [left; reflexivity|]. apply (spelled_more [32%N] [_]); [constructor; [left; reflexivity|constructor]|left; reflexivity|].
    apply (spelled_last [32%N]). constructor; [left; reflexivity|constructor].
Qed.
Example two_says : Forall2 (says UTF8) (map snd two) [[txt "the"; txt "dog"; txt "sat"]; [txt "down"; txt "a"; txt "mat"; txt "there"]].
Proof.
  assert (B : Forall blank [32%N]) by (constructor; [left; reflexivity|constructor]).
  apply Forall2_cons; [|apply Forall2_cons; [|constructor]].
  - split; [do 3 (apply Forall_cons; [apply letters_hyp; reflexivity|]); constructor|]. cbn. apply (spelled_two [_; _; _]); [left; reflexivity|].
    apply (spelled_more [32%N] [_; _; _]); [exact B|left; reflexivity|]. apply (spelled_last [32%N]), B.
  - split; [do 4 (apply Forall_cons; [apply letters_hyp; reflexivity|]); constructor|]. cbn. apply (spelled_two [_; _; _; _]); [left; reflexivity|].
    apply (spelled_more [32%N] [_]); [exact B|left; reflexivity|]. apply (spelled_more [32%N] [_; _; _]); [exact B|left; reflexivity|]. apply (spelled_last [32%N]), B.
Qed.
Example two_fit : lengths_fit 99 (map (@length N) (map fst two)).
Proof. cbn. left. split; [lia|]. left. split; [lia|exact I]. Qed.
Example two_aligned : exists ps, align_trans UTF8 better_diff two = Ok ps /\ map (map texts) ps =
  [[(Some (txt "the"), Some (txt "the"), PCorr); (Some (txt "cat"), Some (txt "dog"), PSub); (Some (txt "sat"), Some (txt "sat"), PCorr)];
   [(Some (txt "on"), Some (txt "down"), PSub); (Some (txt "a"), Some (txt "a"), PCorr); (Some (txt "mat"), Some (txt "mat"), PCorr); (None, Some (txt "there"), PIns)]].
Proof. eexists. split; vm_compute; reflexivity. Qed.
Example two_channel : exists ps, align_chan UTF8 better_diff (txt "x" :: map fst two ++ [txt "y"]) 1 2 [txt "the"; txt "cat"; txt "sat"; txt "on"; txt "a"; txt "mat"; txt "there"] = Ok ps
  /\ map (@length _) ps = [3; 4].
Proof. eexists. split; vm_compute; reflexivity. Qed.
Example two_buffer : ~ lengths_fit 99 [40; 101] /\ lengths_fit 99 [40; 150; 120; 152] /\ ~ lengths_fit 99 [150; 151].
Proof. cbn. split; [|split]; lia. Qed.
