(** C85: a CTM file read by asclite becomes the graph of its words and alternatives. *)
From Coq Require Import String List ZArith NArith Arith Bool Lia.
From Verif Require Import Base Store_Model Graph_Model Links_Model Links_Spec Ctm_Model Ctm_Spec Ctm_Proofs1 Ctm_Proofs2 Ctm_Proofs3 Ctm_Proofs4 Ctm_Proofs5 Ctm_Proofs6 Ctm_Proofs7.
Import ListNotations.
Local Open Scope res_scope.

Lemma load_between : forall ms file its, written (data file) its -> its <> [] -> Forall ok_item its -> Forall (in_order ms) its ->
  exists st, load ms file = Ok st /\ between ms its st.
Proof.
  intros ms file its H Hn Hok HO. destruct (between_all ms _ _ H [] _ (start_between ms) Hok HO) as (st & E & B). cbn [app] in B.
  exists st. split; [|exact B]. unfold load. rewrite lines_words, E. cbn [rbind].
  destruct (c_segs st) as [|s r] eqn:Es; [|reflexivity]. pose proof (so_seg _ _ _ (bt_segs _ _ _ B)) as F. rewrite Es in F. inversion F; subst. congruence.
Qed.
Lemma last_cs : forall ms its st, between ms its st -> its <> [] ->
  exists d i s2, its = d ++ [i] /\ nth_error (c_segs st) (length (c_segs st) - 1) = Some s2 /\
    map cs_last (removelast (c_segs st)) = map lasts (layout d) /\
    cs_last s2 = match i with Word _ => lasts (alts_at (length (entries d)) (alts_of i))
                 | Group alts => lasts (alts_at (length (entries d)) (removelast alts)) end.
Proof.
  intros ms its st B Hn. destruct (bt_tail _ _ _ B) as [(-> & _)|[(_ & _ & _ & _ & EL & d & e & p & -> & _)|(_ & _ & d & alts & dsegs & s & tx & tk & -> & Es & Ed & _ & _ & _ & _ & EL)]]; [congruence| |].
  - rewrite layout_snoc, map_app in EL. cbn [map] in EL. destruct (c_segs st) as [|s2 segs _] using rev_ind; [destruct (map lasts (layout d)); discriminate|].
    rewrite map_app in EL. cbn [map] in EL. apply app_inj_tail in EL. destruct EL as [E1 E2]. exists d, (Word e), s2. split; [reflexivity|].
    rewrite app_length, nth_error_app2 by (cbn; lia). replace (length segs + length [s2] - 1 - length segs) with 0 by (cbn; lia).
    rewrite removelast_last. auto.
  - exists d, (Group alts), s. split; [reflexivity|]. rewrite Es, app_length, nth_error_app2 by (cbn; lia).
    replace (length dsegs + length [s] - 1 - length dsegs) with 0 by (cbn; lia). rewrite removelast_last. split; [reflexivity|]. split; [exact Ed|].
    rewrite layout_snoc, prevs_snoc in EL. rewrite <- alts_at_removelast. cbn [alts_of] in EL. destruct (alts_at (length (entries d)) alts) as [|a A _] using rev_ind.
    + destruct (cs_last s); discriminate.
    + rewrite removelast_last. unfold lasts in EL. rewrite map_app in EL. cbn [map] in EL. apply app_inj_tail in EL. apply EL.
Qed.

(** A well-formed file is loaded.  Its tokens are its words in their order, its segments its
    items; the links of the tokens are those of the file, both ways and each once; the first and
    last tokens of a segment are those of its alternatives, but a group at the end of the file lacks
    the last token of its last alternative. *)
Theorem C85_loaded : forall ms file its, written (data file) its -> its <> [] -> Forall ok_item its -> Forall (in_order ms) its ->
  exists st, load ms file = Ok st /\
    Forall2 (token_of ms) (entries its) (c_toks st) /\ Forall2 (segment_of ms) its (c_segs st) /\
    map cs_first (c_segs st) = map heads (layout its) /\
    map cs_last (removelast (c_segs st)) = map lasts (removelast (layout its)) /\
    (forall s A, nth_error (c_segs st) (length its - 1) = Some s -> nth_error (layout its) (length its - 1) = Some A ->
       cs_last s = if existsb is_group (skipn (length its - 1) its) then removelast (lasts A) else lasts A) /\
    (forall x y, edge (c_links st) x y <-> comes_after (layout its) x y) /\ mutual (c_links st) /\
    (forall x, NoDup (nxt (c_links st) x) /\ NoDup (prc (c_links st) x)).
Proof.
  intros ms file its H Hn Hok HO. destruct (load_between ms file its H Hn Hok HO) as (st & E & B). exists st. split; [exact E|].
  destruct (last_cs ms its st B Hn) as (d & i & s2 & -> & E2 & E3 & E4).
  pose proof (so_seg _ _ _ (bt_segs _ _ _ B)) as FS.
  assert (LS : length (c_segs st) = length (d ++ [i])).
  { clear -FS. induction FS; cbn; congruence. }
  split; [apply (bt_toks _ _ _ B)|]. split; [exact FS|]. split; [apply (so_first _ _ _ (bt_segs _ _ _ B))|].
  split; [rewrite layout_snoc, removelast_last; exact E3|]. split.
  { intros s A Hs HA. rewrite LS, Hs in E2. injection E2 as <-.
    assert (EA : A = alts_at (length (entries d)) (alts_of i)).
    { assert (LD : length (layout d) = length d) by apply layout_length. rewrite layout_snoc, app_length in HA.
      replace (length d + length [i] - 1) with (length (layout d)) in HA by (cbn; lia). rewrite nth_error_app2, Nat.sub_diag in HA by lia. injection HA as <-. reflexivity. }
    rewrite E4, EA. rewrite app_length. replace (length d + length [i] - 1) with (length d) by (cbn; lia).
    rewrite skipn_app, skipn_all, Nat.sub_diag. cbn [app skipn existsb]. destruct i as [e|alts]; cbn [is_group orb alts_of]; [reflexivity|].
    rewrite <- alts_at_removelast. unfold lasts. destruct (alts_at (length (entries d)) alts) as [|a L _] using rev_ind; [reflexivity|].
    rewrite removelast_last, map_app. cbn [map]. rewrite removelast_last. reflexivity. }
  rewrite (bt_links _ _ _ B). split; [|split; [apply linked_mutual|]].
  - intros x y. rewrite linked_edge, pairs_in. split; [intros [(A & r & _ & [] & _)|X]; exact X|auto].
  - intros x. apply linked_nodup. apply pairs_nodup; [apply layout_ne; exact Hok|constructor|apply layout_nodup].
Qed.
Print Assumptions C85_loaded.

(** If the file ends with a word, the paths from the first segment to the last spell exactly the
    texts the file stands for. *)
Theorem C85_spells : forall ms file d e, written (data file) (d ++ [Word e]) -> Forall ok_item d -> Forall (in_order ms) d ->
  exists st, load ms file = Ok st /\ forall ws, spells st ws <-> says (d ++ [Word e]) ws.
Proof.
  intros ms file d e H Hok HO.
  assert (Hn : d ++ [Word e] <> []) by (destruct d; discriminate).
  assert (Hok' : Forall ok_item (d ++ [Word e])) by (apply Forall_app; split; [exact Hok|repeat constructor]).
  destruct (load_between ms file _ H Hn Hok') as (st & E & B); [apply Forall_app; split; [exact HO|repeat constructor]|].
  exists st. split; [exact E|]. intros ws. destruct (last_cs ms _ st B Hn) as (d' & i & s2 & ED & E2 & _ & E4).
  apply app_inj_tail in ED. destruct ED as [<- <-]. apply spell with (ms := ms) (i := Word e) (rest := []) (s2 := s2); auto.
Qed.
Print Assumptions C85_spells.

(** If the file ends with a group, its last alternative is no longer spelt. *)
Theorem C85_last_group : forall ms file d alts, written (data file) (d ++ [Group alts]) -> Forall ok_item (d ++ [Group alts]) ->
  Forall (in_order ms) (d ++ [Group alts]) ->
  exists st, load ms file = Ok st /\ forall ws, spells st ws <-> says (d ++ [Group (removelast alts)]) ws.
Proof.
  intros ms file d alts H Hok HO.
  assert (Hn : d ++ [Group alts] <> []) by (destruct d; discriminate).
  destruct (load_between ms file _ H Hn Hok HO) as (st & E & B).
  exists st. split; [exact E|]. intros ws. destruct (last_cs ms _ st B Hn) as (d' & i & s2 & ED & E2 & _ & E4).
  apply app_inj_tail in ED. destruct ED as [<- <-].
  assert (EA : exists rest, alts = removelast alts ++ rest).
  { destruct alts as [|a A _] using rev_ind; [exists []; reflexivity|]. exists [a]. rewrite removelast_last. reflexivity. }
  destruct EA as (rest & EA). apply spell with (ms := ms) (i := Group alts) (rest := rest) (s2 := s2); auto.
Qed.
Print Assumptions C85_last_group.

(** The parent of a token is the segment of its item, but that of the word after a group the
    group's. *)
Theorem C85_parents : forall ms file its, written (data file) its -> its <> [] -> Forall ok_item its -> Forall (in_order ms) its ->
  exists st, load ms file = Ok st /\ map ct_parent (c_toks st) = map Some (parents its).
Proof.
  intros ms file its H Hn Hok HO. destruct (load_between ms file its H Hn Hok HO) as (st & E & B). exists st. split; [exact E|]. apply (bt_par _ _ _ B).
Qed.
Print Assumptions C85_parents.

(** Whatever the tags are, if every line but comments has its five fields no word is lost, added
    or moved. *)
Theorem C85_words_kept : forall ms file st, load ms file = Ok st -> Forall (fun l => 5 <= length l) (data file) ->
  map ct_text (c_toks st) = filter (fun w => negb (str_eqb w ALT_BEGIN || str_eqb w ALT_END || str_eqb w ALT)) (map (fun l => nth 4 l []) (data file)).
Proof.
  intros ms file st H HF. unfold load in H. rewrite lines_words in H. destruct (words_loop ms start_state (data file)) as [st'| | |] eqn:E; try discriminate.
  cbn [rbind] in H. assert (st' = st) by (destruct (c_segs st'); [discriminate|injection H as <-; reflexivity]). subst st'. clear H.
  assert (G : forall ls s, words_loop ms s ls = Ok st -> length (c_bufs s) = 6 -> Forall (fun l => 5 <= length l) ls ->
    map ct_text (c_toks st) = map ct_text (c_toks s) ++ filter (fun w => negb (tag_text w)) (map (fun l => nth 4 l []) ls)).
  { induction ls as [|l ls IH]; intros s Hs Hb Hl.
    - injection Hs as <-. cbn. rewrite app_nil_r. reflexivity.
    - cbn [words_loop] in Hs. destruct (words_step ms s l) as [s'| | |] eqn:ES; try discriminate. cbn [rbind] in Hs. inversion Hl; subst.
      destruct (words_texts ms s l s' ES Hb) as (Hb' & ET); [assumption|]. rewrite (IH s' Hs Hb'), ET by assumption. rewrite <- app_assoc. f_equal.
      change (map (fun l => nth 4 l []) (l :: ls)) with ([nth 4 l []] ++ map (fun l => nth 4 l []) ls). rewrite filter_app. reflexivity. }
  rewrite (G _ _ E eq_refl HF). reflexivity.
Qed.
Print Assumptions C85_words_kept.

Lemma isspace_white c : isspace c = true <-> white c.
Proof.
  unfold isspace, white. rewrite orb_true_iff, andb_true_iff, N.eqb_eq, !N.leb_le. tauto.
Qed.
Lemma words_white sp l : Forall white sp -> words_from [] (sp ++ l) = words_from [] l.
Proof. induction 1 as [|c sp H _ IH]; [reflexivity|]. cbn [app words_from]. apply isspace_white in H. rewrite H. exact IH. Qed.
Lemma words_run w : forall cur l, Forall (fun c => ~ white c) w -> words_from cur (w ++ l) = words_from (cur ++ w) l.
Proof.
  induction w as [|c w IH]; intros cur l H; [cbn; rewrite app_nil_r; reflexivity|]. cbn [app words_from].
  assert (Hc : isspace c = false).
  { destruct (isspace c) eqn:E; [|reflexivity]. apply isspace_white in E. destruct (Forall_inv H E). }
  rewrite Hc.
  rewrite (IH _ _ (Forall_inv_tail H)), <- app_assoc. reflexivity.
Qed.
Lemma fields_words l ws : fields l ws -> line_words l = ws.
Proof.
  unfold line_words. induction 1 as [sp H|sp w rest ws H N F R _ IH].
  - rewrite <- (app_nil_r sp), (words_white _ _ H). reflexivity.
  - rewrite (words_white _ _ H), (words_run _ _ _ F). cbn [app]. destruct rest as [|c rest].
    + cbn [words_from] in *. destruct w; [congruence|]. rewrite <- IH. reflexivity.
    + cbn [words_from] in *. apply isspace_white in R. rewrite R in *. destruct w; [congruence|]. rewrite <- IH. reflexivity.
Qed.
Lemma words_fields l : forall sp w, Forall white sp -> Forall (fun c => ~ white c) w -> fields (sp ++ w ++ l) (words_from w l).
Proof.
  induction l as [|c l IH]; intros sp w HS HW.
  - rewrite !app_nil_r. cbn [words_from]. destruct w as [|a w]; [rewrite app_nil_r; constructor; exact HS|].
    rewrite <- (app_nil_r (a :: w)) at 1. apply fields_one; auto; [discriminate|]. constructor. constructor.
  - cbn [words_from]. destruct (isspace c) eqn:E.
    + apply isspace_white in E. destruct w as [|a w].
      * cbn [app]. specialize (IH (sp ++ [c]) [] ltac:(apply Forall_app; auto) (Forall_nil _)). rewrite <- app_assoc in IH. exact IH.
      * apply fields_one; auto; [discriminate|]. exact (IH [c] [] (Forall_cons _ E (Forall_nil _)) (Forall_nil _)).
    + assert (W : ~ white c) by (intros K; apply isspace_white in K; congruence).
      specialize (IH sp (w ++ [c]) HS ltac:(apply Forall_app; auto)). rewrite <- app_assoc in IH. exact IH.
Qed.

(** The lines the other theorems speak of are the lines of the file that are no comments, each
    cut at its white space. *)
Theorem C85_fields : forall file ds, file_fields file ds <-> data file = ds.
Proof.
  intros file ds. split.
  - induction 1 as [|t file ds _ IH|l file ws ds H F _ IH]; [reflexivity| |]; unfold data in *; cbn [filter].
    + exact IH.
    + assert (E : is_comment l = false).
      { destruct l as [|c l]; [reflexivity|]. cbn. apply N.eqb_neq. intros ->. exact (H l eq_refl). }
      rewrite E. cbn [negb map]. rewrite IH, (fields_words _ _ F). reflexivity.
  - intros <-. unfold data. induction file as [|l file IH]; [constructor|]. cbn [filter].
    destruct (is_comment l) eqn:E; cbn [negb].
    + destruct l as [|c l]; [discriminate|]. cbn in E. apply N.eqb_eq in E. subst c. constructor. exact IH.
    + cbn [map]. constructor; [|exact (words_fields l [] [] (Forall_nil _) (Forall_nil _))|exact IH].
      intros t ->. discriminate.
Qed.
Print Assumptions C85_fields.

(** A line without words repeats the line before it: an empty line adds a word. *)
Theorem C85_blank_line_repeats : forall ms pre l blank post, is_comment l = false -> is_comment blank = false ->
  5 <= length (line_words l) -> line_words blank = [] ->
  load ms (pre ++ l :: blank :: post) = load ms (pre ++ l :: l :: post).
Proof.
  intros ms pre l blank post Hl Hb H5 H0. unfold load. rewrite !lines_words. unfold data. rewrite !filter_app, !map_app. cbn [filter]. rewrite Hl, Hb. cbn [negb map].
  rewrite H0, !words_loop_app. destruct (words_loop ms start_state _) as [s| | |]; cbn [rbind]; auto. cbn [words_loop].
  destruct (words_step ms s (line_words l)) as [s'| | |] eqn:E; cbn [rbind]; auto. rewrite (step_again ms _ _ _ E H5). reflexivity.
Qed.
Print Assumptions C85_blank_line_repeats.

(** ** What does not hold *)
Definition digit (w : str) : Z := match w with c :: _ => (Z.of_N c - 48)%Z | [] => 0%Z end.
Definition en (b t : string) : entry := {| e_src := bytes "f"; e_chan := bytes "1"; e_begin := bytes b; e_dur := bytes "1"; e_text := bytes t; e_conf := None |}.

Ltac short := unfold short; cbn [firstn]; repeat constructor; vm_compute; lia.
Ltac entry := split; [short|split; [intros [X|[X|X]]; vm_compute in X; discriminate|reflexivity]].
Ltac tag := split; [short|do 5 eexists; reflexivity].

(** A file that ends with a group does not spell all it stands for. *)
Theorem C85_spells_refuted : ~ (forall ms file its st ws, written (data file) its -> its <> [] -> Forall ok_item its -> Forall (in_order ms) its ->
  load ms file = Ok st -> says its ws -> spells st ws).
Proof.
  intro H. set (file := map bytes ["f 1 0 1 <ALT_BEGIN>"; "f 1 0 1 a"; "f 1 0 1 <ALT>"; "f 1 0 1 b"; "f 1 0 1 <ALT_END>"]%string).
  assert (W : written (data file) ([] ++ [Group [[en "0" "a"]; [en "0" "b"]]])).
  { vm_compute data. apply (written_group _ [_; _; _] _ _ [] []); [tag| |tag|constructor].
    apply (alts_more [_] [_] _ [_]); [constructor; [entry|constructor]|tag|]. apply alts_one. constructor; [entry|constructor]. }
  assert (K : Forall ok_item ([] ++ [Group [[en "0" "a"]; [en "0" "b"]]])) by (repeat constructor; discriminate).
  assert (O : Forall (in_order digit) ([] ++ [Group [[en "0" "a"]; [en "0" "b"]]])).
  { constructor; [|constructor]. cbn [in_order]. constructor; [vm_compute; discriminate|constructor]. }
  destruct (C85_last_group digit file [] _ W K O) as (st & E & S).
  assert (Y : says ([] ++ [Group [[en "0" "a"]; [en "0" "b"]]]) [bytes "b"]).
  { apply (says_cons _ _ [en "0" "b"] []); [right; left; reflexivity|constructor]. }
  specialize (H digit file _ st [bytes "b"] W ltac:(discriminate) K O E Y).
  apply S in H. cbn [app removelast] in H. inversion H as [|? ? a ws Ha Hs Ei Ew]; subst. inversion Hs; subst. destruct Ha as [<-|[]]. vm_compute in Ew. discriminate.
Qed.
Print Assumptions C85_spells_refuted.

(** The parent of a token is not always the segment of its item: the word after a group belongs
    to the segment of the group. *)
Theorem C85_parent_refuted : ~ (forall ms file its st k A t tk, written (data file) its -> Forall ok_item its -> Forall (in_order ms) its ->
  load ms file = Ok st -> nth_error (layout its) k = Some A -> In t (concat A) -> nth_error (c_toks st) t = Some tk -> ct_parent tk = Some k).
Proof.
  intro H. set (file := map bytes ["f 1 0 1 <ALT_BEGIN>"; "f 1 0 1 a"; "f 1 0 1 <ALT_END>"; "f 1 2 1 b"]%string).
  assert (W : written (data file) [Group [[en "0" "a"]]; Word (en "2" "b")]).
  { vm_compute data. apply (written_group _ [_] _ _ [_]); [tag|apply alts_one; constructor; [entry|constructor]|tag|]. apply written_word; [entry|constructor]. }
  destruct (load digit file) as [st| | |] eqn:E; try (vm_compute in E; discriminate).
  specialize (H digit file _ st 1 [[1]] 1 {| ct_text := bytes "b"; ct_start := 2; ct_end := 3; ct_conf := None; ct_parent := Some 0 |} W).
  assert (X : Some 0 = Some 1); [|discriminate]. apply H; auto; [repeat constructor; discriminate|repeat constructor|left; reflexivity|].
  vm_compute in E. injection E as <-. reflexivity.
Qed.
Print Assumptions C85_parent_refuted.

(** An alternative that begins before the first one stops the program. *)
Theorem C85_early_alternative_refuted : ~ (forall ms file its, written (data file) its -> its <> [] -> Forall ok_item its -> exists st, load ms file = Ok st).
Proof.
  intro H. set (file := map bytes ["f 1 2 1 <ALT_BEGIN>"; "f 1 2 1 a"; "f 1 2 1 <ALT>"; "f 1 1 1 b"; "f 1 2 1 <ALT_END>"]%string).
  assert (W : written (data file) [Group [[en "2" "a"]; [en "1" "b"]]]).
  { vm_compute data. apply (written_group _ [_; _; _] _ _ [] []); [tag| |tag|constructor].
    apply (alts_more [_] [_] _ [_]); [constructor; [entry|constructor]|tag|]. apply alts_one. constructor; [entry|constructor]. }
  destruct (H digit file _ W ltac:(discriminate)) as (st & E); [repeat constructor; discriminate|]. vm_compute in E. discriminate.
Qed.
Print Assumptions C85_early_alternative_refuted.

(** An empty alternative does not stand for no word: the word after the group becomes one of the
    alternatives. *)
Theorem C85_empty_alternative_refuted : ~ (forall ms file d e st ws, written (data file) (d ++ [Word e]) -> Forall (in_order ms) d ->
  load ms file = Ok st -> spells st ws -> says (d ++ [Word e]) ws).
Proof.
  intro H. set (file := map bytes ["f 1 0 1 <ALT_BEGIN>"; "f 1 0 1 a"; "f 1 0 1 <ALT>"; "f 1 0 1 <ALT_END>"; "f 1 2 1 b"]%string).
  assert (W : written (data file) ([Group [[en "0" "a"]; []]] ++ [Word (en "2" "b")])).
  { vm_compute data. apply (written_group _ [_; _] _ _ [_]); [tag| |tag|]; [|apply written_word; [entry|constructor]].
    apply (alts_more [_] [_] _ []); [constructor; [entry|constructor]|tag|]. apply alts_one. constructor. }
  destruct (load digit file) as [st| | |] eqn:E; try (vm_compute in E; discriminate).
  assert (S : spells st [bytes "a"]).
  { vm_compute in E. injection E as <-. do 2 eexists. exists 0, []. split; [reflexivity|]. split; [reflexivity|]. split; [left; reflexivity|]. split; [exact I|]. split; [left; reflexivity|reflexivity]. }
  specialize (H digit file _ _ st _ W ltac:(repeat constructor) E S). cbn [app] in H. inversion H as [|? ? a ws Ha Hs Ei Ew]; subst.
  inversion Hs as [|? ? a' ws' Ha' Hs' Ei' Ew']; subst. inversion Hs'; subst. destruct Ha' as [<-|[]]. destruct Ha as [<-|[<-|[]]]; vm_compute in Ew; discriminate.
Qed.
Print Assumptions C85_empty_alternative_refuted.

(** ** cases *)
Definition sample : list str := map bytes [";; a comment"; "f 1 0 1 the"; "f 1 1 1 <ALT_BEGIN>"; "f 1 1 1 big 0.5"; "f 1 2 1 dog 0.25"; "f 1 1 1 <ALT>"; "f 1 1 2 bigdog"; "f 1 1 1 <ALT_END>"; "f 1 3 1 ran"]%string.
Definition sample_items : list item :=
  [Word (en "0" "the");
   Group [[{| e_src := bytes "f"; e_chan := bytes "1"; e_begin := bytes "1"; e_dur := bytes "1"; e_text := bytes "big"; e_conf := Some (bytes "0.5") |};
           {| e_src := bytes "f"; e_chan := bytes "1"; e_begin := bytes "2"; e_dur := bytes "1"; e_text := bytes "dog"; e_conf := Some (bytes "0.25") |}];
          [{| e_src := bytes "f"; e_chan := bytes "1"; e_begin := bytes "1"; e_dur := bytes "2"; e_text := bytes "bigdog"; e_conf := None |}]]].
Example sample_written : written (data sample) (sample_items ++ [Word (en "3" "ran")]) /\ Forall ok_item sample_items /\ Forall (in_order digit) sample_items.
Proof.
  split; [|split].
  - vm_compute data. apply written_word; [entry|]. apply (written_group _ [_; _; _; _] _ _ [_]); [tag| |tag|apply written_word; [entry|constructor]].
    apply (alts_more [_; _] [_; _] _ [_]); [|tag|apply alts_one; constructor; [entry|constructor]].
    constructor; [|constructor; [|constructor]]; (split; [short|split; [intros [X|[X|X]]; vm_compute in X; discriminate|exists []; reflexivity]]).
  - repeat constructor; discriminate.
  - constructor; [exact I|]. constructor; [|constructor]. cbn [in_order]. constructor; [vm_compute; discriminate|constructor].
Qed.
Example sample_layout : layout (sample_items ++ [Word (en "3" "ran")]) = [[[0]]; [[1; 2]; [3]]; [[4]]].
Proof. reflexivity. Qed.
Example sample_says : says (sample_items ++ [Word (en "3" "ran")]) (map bytes ["the"; "bigdog"; "ran"]%string).
Proof.
  apply (says_cons _ _ [en "0" "the"] (map bytes ["bigdog"; "ran"]%string)); [left; reflexivity|].
  apply (says_cons _ _ [{| e_src := bytes "f"; e_chan := bytes "1"; e_begin := bytes "1"; e_dur := bytes "2"; e_text := bytes "bigdog"; e_conf := None |}] (map bytes ["ran"]%string)); [right; left; reflexivity|].
  apply (says_cons _ _ [en "3" "ran"] []); [left; reflexivity|constructor].
Qed.
Example sample_loaded : exists st, load digit sample = Ok st /\ map ct_text (c_toks st) = map bytes ["the"; "big"; "dog"; "bigdog"; "ran"]%string /\
  map cs_first (c_segs st) = [[0]; [1; 3]; [4]] /\ map cs_last (c_segs st) = [[0]; [2; 3]; [4]] /\ map cs_end (c_segs st) = [1; 3; 4]%Z.
Proof. eexists. split; [vm_compute; reflexivity|]. repeat split. Qed.
Example sample_parents : parents (sample_items ++ [Word (en "3" "ran")]) = [0; 1; 1; 1; 1].
Proof. reflexivity. Qed.

Example sample_fields : file_fields [bytes ";; a comment"; bytes " f  1 0.0 1.0 a "] [[bytes "f"; bytes "1"; bytes "0.0"; bytes "1.0"; bytes "a"]].
Proof. apply C85_fields. vm_compute. reflexivity. Qed.
