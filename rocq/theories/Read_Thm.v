(** C67, C68, C69: the reading of STM and CTM files. *)
From Coq Require Import List NArith ZArith Arith Bool Lia.
From Verif Require Import Base Chan_Model Chan_Spec Chan_Proofs Chan_Proofs2 Chan_Proofs3 Chan_Proofs4 Chan_Thm Read_Model Read_Spec Read_Proofs Read_Proofs2 Read_Proofs3 Read_Proofs4 Read_Proofs5 Read_Proofs6.
Import ListNotations.
Local Open Scope res_scope.
Local Open Scope Z_scope.

(** Every line has fields. *)
Lemma blank_dec c : {is_blank c} + {~ is_blank c}.
Proof. unfold is_blank. destruct (N.eq_dec c 32), (N.eq_dec c 9), (N.eq_dec c 10); auto; right; intros [|[|]]; contradiction. Qed.
Lemma span_ {A} (Q : A -> Prop) (dec : forall c, {Q c} + {~ Q c}) (l : list A) :
  exists a b, l = a ++ b /\ Forall Q a /\ match b with c :: _ => ~ Q c | [] => True end.
Proof.
  induction l as [|c l (a & b & -> & F & D)]; [exists [], []; auto|].
  destruct (dec c) as [Hc|Hc]; [exists (c :: a), b; auto|exists [], (c :: a ++ b); auto].
Qed.
Theorem C67_fields_total : forall l, exists ws, Fields l ws.
Proof.
  intro l. remember (length l) as n eqn:En. revert l En. induction n as [n IH] using lt_wf_ind. intros l En.
  destruct (span_ is_blank blank_dec l) as (b & r & -> & Fb & Db). destruct r as [|c r].
  - exists []. rewrite app_nil_r. constructor. exact Fb.
  - destruct (span_ (fun c => ~ is_blank c) (fun c => match blank_dec c with left a => right (fun x => x a) | right a => left a end) (c :: r)) as (w & q & E & Fw & Dw).
    rewrite E. assert (W : w <> []).
    { intros ->. cbn [app] in E. subst q. contradiction. }
    destruct (IH (length q)) with (l := q) as (ws & Hw); [|reflexivity|].
    { subst n. rewrite E, !app_length. destruct w; [congruence|cbn [length]; lia]. }
    exists (w :: ws). constructor; auto. destruct q as [|x q]; [exact I|]. destruct (blank_dec x); [assumption|contradiction].
Qed.

(** C67: a segment has what its line says. *)
Theorem C67_line : forall numS cs line ws s, no_nul line -> Fields (cased cs line) ws -> (5 <= length ws)%nat ->
  parse_stm_line numS cs line = Ok s -> stm_of numS ws s.
Proof.
  intros numS cs line ws s NN F L E. pose proof (stm_line numS cs line ws NN F) as X.
  destruct ws as [|f [|c [|k [|b [|e r]]]]]; cbn [length] in L; try lia. destruct X as (s' & E' & H). congruence.
Qed.
(** No line with five fields is refused, every other one is an access through the null pointer. *)
Theorem C67_line_total : forall numS cs line ws, no_nul line -> Fields (cased cs line) ws ->
  ((5 <= length ws)%nat <-> exists s, parse_stm_line numS cs line = Ok s) /\
  ((length ws < 5)%nat <-> parse_stm_line numS cs line = Undef).
Proof.
  intros numS cs line ws NN F. pose proof (stm_line numS cs line ws NN F) as X.
  destruct ws as [|f [|c [|k [|b [|e r]]]]]; cbn [length];
    try (rewrite X; split; (split; [intros; try lia; reflexivity|intros; try lia; firstorder discriminate])).
  destruct X as (s' & E' & _). rewrite E'. split; (split; [intros; try lia; eauto|intros; try lia; discriminate]).
Qed.

Lemma stm_file numS cs b wss : StmText cs b wss -> exists ss, StmFile numS cs b ss /\ Forall2 (stm_of numS) wss ss.
Proof.
  induction 1 as [|l r wss L NL SK T (ss & A & B)|l r ws wss L SK NN F L5 T (ss & A & B)].
  - exists []. split; constructor.
  - exists ss. split; [apply sf_skip; assumption|exact B].
  - pose proof (stm_line numS cs l ws NN F) as X. destruct ws as [|f [|c [|k [|b [|e r']]]]]; cbn [length] in L5; try lia.
    destruct X as (s & E & H). exists (s :: ss). split; [apply sf_seg; assumption|constructor; assumption].
Qed.
Lemma ctm_file numC cs b wss : CtmText cs b wss -> exists ws : list cword, CtmFile numC cs b (map (fun w => the_word (c_mword w)) ws) /\ Forall2 (ctm_of numC) wss ws.
Proof.
  induction 1 as [|l r wss L SK T (ss & A & B)|l r ws wss L SK NN F L5 SH T (ss & A & B)].
  - exists []. split; constructor.
  - exists ss. split; [apply cf_skip; assumption|exact B].
  - destruct (ctm_line numC cs l ws NN) as [[E X]|[[E [[X|X] _]]|(E & _ & _ & w & P & H)]].
    + destruct L as [NE _]. exact NE.
    + exact F.
    + exfalso. subst l. assert (Z0 : Fields [10%N] ws) by (destruct cs; exact F).
      inversion Z0 as [b0 Fb E0 E1|b0 w0 r0 ws0 Fb W0 Fw D Fr E0 E1]; [subst ws; cbn [length] in L5; lia|].
      destruct b0 as [|x b0]; cbn [app] in E0.
      * destruct w0 as [|y w0]; [congruence|]. cbn [app] in E0. injection E0 as -> _. apply Forall_inv in Fw. apply Fw. right; right; reflexivity.
      * injection E0 as _ E0. destruct b0; [|discriminate]. destruct w0; [congruence|discriminate].
    + lia.
    + exfalso. apply X. exact SH.
    + exists (w :: ss). split; [cbn [map]; apply cf_word; assumption|constructor; assumption].
Qed.

(** C67: a file is the sequence of its segments. *)
Theorem C67_file : forall numS cs bytes wss, StmText cs bytes wss ->
  exists ss, Forall2 (stm_of numS) wss ss /\
    forall max, Z.of_nat (length wss) + 1 < max -> exists f,
      fill_STM numS cs {| rest := bytes; feof := false |} {| s_max := max; s_s := 0; s_segs := [] |} =
        Ok ({| s_max := max; s_s := 0; s_segs := ss |}, f) /\ rest f = [].
Proof.
  intros numS cs bytes wss T. destruct (stm_file numS cs _ _ T) as (ss & F & H). exists ss. split; [exact H|].
  intros max M. unfold fill_STM. cbn [s_segs s_s s_max length Z.of_nat Z.ltb Z.compare rbind rest].
  assert (LL : length ss = length wss) by (clear - H; induction H; cbn [length]; congruence).
  destruct (fill_loop numS cs (S (S (length bytes))) {| rest := bytes; feof := false |} ss max [] F) as (a & b & f' & E & Eab & Fb & FI & M2 & L2 & K2 & G2 & P2).
  { intro X. discriminate X. } { cbn [feof rest]. lia. } { cbn [length]. lia. }
  cbn [rest] in E. rewrite E. cbn [rbind app] in *.
  assert (La : (length a <= length ss)%nat) by (rewrite Eab, app_length; lia).
  destruct G2 as [G2|G2]; [|lia]. assert (b = []) by (apply (stm_nil numS cs); rewrite <- (FI G2); exact Fb). subst b. rewrite app_nil_r in Eab. subst a.
  exists f'. split; [reflexivity|apply FI, G2].
Qed.

(** C68: a word has what its line says; other lines never give one. *)
Theorem C68_line : forall numC cs line ws, no_nul line -> line <> [] -> Fields (cased cs line) ws ->
  (line = [10%N] /\ parse_ctm_line numC cs line = Exit) \/
  (line <> [10%N] /\ (length ws < 5 \/ exists w, In w (firstn 7 ws) /\ 500 <= length w)%nat /\ parse_ctm_line numC cs line = Undef) \/
  (line <> [10%N] /\ (5 <= length ws)%nat /\ (forall w, In w (firstn 7 ws) -> (length w < 500)%nat) /\
     exists w, parse_ctm_line numC cs line = Ok w /\ ctm_of numC ws w).
Proof.
  intros numC cs line ws NN NE F. destruct (ctm_line numC cs line ws NN NE F) as [H|[(A & B & C)|(A & B & C & D)]]; [auto| |].
  - right. left. split; [exact A|]. split; [|exact C]. destruct B as [B|B]; [left; exact B|right].
    unfold seven in B. clear - B. induction (firstn 7 ws) as [|w l IH]; [exfalso; apply B; constructor|].
    destruct (le_lt_dec 500 (length w)) as [G|G]; [exists w; split; [left; reflexivity|exact G]|].
    destruct IH as (x & Hx & Lx); [intro X; apply B; constructor; [exact G|exact X]|]. exists x. split; [right; exact Hx|exact Lx].
  - right. right. split; [exact A|]. split; [exact B|]. split; [|exact D]. unfold seven in C. rewrite Forall_forall in C. exact C.
Qed.
Theorem C68_file : forall numC cs bytes wss, CtmText cs bytes wss ->
  exists ws : list cword, Forall2 (ctm_of numC) wss ws /\
    forall max, 4 <= max -> Z.of_nat (length wss) + 1 < max -> exists f max' ws',
      fill_mark_struct numC cs {| rest := bytes; feof := false |} {| w_max := max; w_s := 1; w_words := [] |} false =
        Ok ({| w_max := max'; w_s := 1; w_words := ws' |}, f, true) /\
      map c_mword ws' = mark_alternates false (map (fun w => the_word (c_mword w)) ws).
Proof.
  intros numC cs bytes wss T. destruct (ctm_file numC cs _ _ T) as (ws & F & H). exists ws. split; [exact H|].
  intros max M4 M. unfold fill_mark_struct. cbn [w_words w_s w_max Z.ltb Z.compare Pos.compare Pos.compare_cont rest].
  assert (LL : length ws = length wss) by (clear - H; induction H; cbn [length]; congruence).
  destruct (mark_loop numC cs (S (S (length bytes))) {| rest := bytes; feof := false |} _ max [] F) as (a & max' & f' & rem' & e & E & A1 & A2 & A3 & A4 & A5 & A6 & A7 & A8).
  { intro X. discriminate X. } { repeat split; cbn [length]; lia. } { cbn [rest]. lia. }
  cbn [app] in *. rewrite E. cbn [rbind].
  assert (La : (length a <= length ws)%nat).
  { apply (f_equal (@length mword)) in A4. rewrite mark_length, app_length, !map_length in A4. lia. }
  assert (MM : max <= max').
  { clear - E M4. revert E. generalize (S (S (length bytes))) as n. generalize {| rest := bytes; feof := false |} as f. generalize (@nil cword) as w.
    intros w f n. revert w f max M4 a max' f' e. induction n as [|n IH]; intros w f max M4 a max' f' e E; [discriminate|]. cbn [fill_mark_loop] in E.
    destruct (Z.of_nat (length w) <? max - 1); [|injection E as _ <- _ _; lia].
    destruct (get_line f) as [[line|] f2]; [|injection E as _ <- _ _; lia].
    match type of E with rbind ?x _ = _ => destruct x as [w2| | |]; cbn [rbind] in E; try discriminate end.
    assert (max <= expand max w2).
    { unfold expand. destruct w2 as [|d r]; [lia|]. destruct ((max - 1 <=? Z.of_nat (length (d :: r))) && str_eqb (conv (last (d :: r) d)) (conv d)); [|lia].
      pose proof (grow_more max M4). lia. }
    apply IH in E; lia. }
  destruct e; [|specialize (A7 eq_refl); lia].
  destruct (A6 eq_refl) as [_ ->]. exists f', max', a. split; [reflexivity|]. cbn [left_flag map mark_alternates] in A4. rewrite app_nil_r in A4. symmetry. exact A4.
Qed.

(** C69: the sizes of the windows do not show. *)
Lemma stm_length numS cs b ss : StmFile numS cs b ss -> (length ss <= length b)%nat.
Proof. induction 1 as [|l r ss [NE _] NL SK T IH|l r s ss [NE _] SK P T IH]; cbn [length]; rewrite ?app_length; (destruct l; [congruence|cbn [length]; lia]) || lia. Qed.
Lemma windows numS numC cs o smax wmax ref hyp ss ws : 2 <= smax -> 4 <= wmax -> StmFile numS cs ref ss -> CtmFile numC cs hyp ws ->
  align_files numS numC cs o smax wmax ref hyp =
    (let* r := align_ctm_to_stm o ws (map l_seg ss) in Ok (option_map (map (observe ws (map l_seg ss))) r)).
Proof.
  intros S2 W4 FS FC. unfold align_files, align_ctm_to_stm. pose proof (stm_length _ _ _ _ FS) as LS.
  replace (observe ws) with (observe (map the_word (mark_alternates false ws))) by (rewrite mark_words; reflexivity).
  apply (loops numS numC cs o (mark_alternates false ws) (map l_seg ss) (S (length ss))) with (rem := ss) (remw := ws) (sf := {| rest := ref; feof := false |}).
  - repeat split; cbn [s_max s_s s_segs rest length]; rewrite ?map_length; try lia; try assumption; [intro X; discriminate X].
  - repeat split; cbn [w_max w_s w_words rest length]; try lia; try assumption. intro X; discriminate X.
  - cbn [s_s s_segs length]. right. lia.
  - cbn [w_s w_words]. right. right. auto.
  - rewrite map_length. lia.
  - lia.
  - rewrite map_length. lia.
Qed.
Theorem C69_windows : forall numS numC cs ref hyp rss hss, StmText cs ref rss -> CtmText cs hyp hss ->
  exists ss (ws : list cword), Forall2 (stm_of numS) rss ss /\ Forall2 (ctm_of numC) hss ws /\
    let stm := map l_seg ss in
    let words := map (fun w => the_word (c_mword w)) ws in
    forall o smax wmax, 2 <= smax -> 4 <= wmax ->
      align_files numS numC cs o smax wmax ref hyp =
        (let* r := align_ctm_to_stm o words stm in Ok (option_map (map (observe words stm)) r)).
Proof.
  intros numS numC cs ref hyp rss hss TS TC. destruct (stm_file numS cs _ _ TS) as (ss & FS & HS). destruct (ctm_file numC cs _ _ TC) as (ws & FC & HC).
  exists ss, ws. split; [exact HS|]. split; [exact HC|]. intros stm words o smax wmax S2 W4. apply windows; assumption.
Qed.
Theorem C69_any_size : forall numS numC cs o ref hyp rss hss smax wmax smax' wmax', StmText cs ref rss -> CtmText cs hyp hss ->
  2 <= smax -> 4 <= wmax -> 2 <= smax' -> 4 <= wmax' ->
  align_files numS numC cs o smax wmax ref hyp = align_files numS numC cs o smax' wmax' ref hyp.
Proof.
  intros numS numC cs o ref hyp rss hss smax wmax smax' wmax' TS TC A B C D.
  destruct (C69_windows numS numC cs ref hyp rss hss TS TC) as (ss & ws & _ & _ & E). rewrite !E by assumption. reflexivity.
Qed.

(** C69: what is scored, from the bytes of the files. *)
Theorem C69_scored : forall numS numC cs o smax wmax ref hyp rss hss, StmText cs ref rss -> CtmText cs hyp hss ->
  2 <= smax -> 4 <= wmax -> rss <> [] ->
  exists ss (ws : list cword), Forall2 (stm_of numS) rss ss /\ Forall2 (ctm_of numC) hss ws /\
    let stm := map l_seg ss in
    let words := map (fun w => the_word (c_mword w)) ws in
    forall R H uss P, Runs seg_key stm R -> Runs word_key words H -> Forall2 (fun r us => Units (snd r) us) H uss -> Pairing R H P ->
    exists vs, align_files numS numC cs o smax wmax ref hyp = Ok (Some vs) /\
      Forall2 (fun p v => exists us gs lf, Units (snd p) us /\ Given (used o (snd p)) (fst p) us gs lf /\
        Forall2 (fun x g => fst (fst x) = Some (fst g) /\ snd (fst x) = flat_map spell (snd g) /\ (snd x = true <-> ~ unscored (text (fst g)))) (fst v) gs) P vs.
Proof.
  intros numS numC cs o smax wmax ref hyp rss hss TS TC S2 W4 NE.
  destruct (C69_windows numS numC cs ref hyp rss hss TS TC) as (ss & ws & HS & HC & E). exists ss, ws. split; [exact HS|]. split; [exact HC|].
  intros stm words R H uss P RR RH HU PP. cbv zeta in E. fold stm words in E.
  assert (NE' : stm <> []) by (unfold stm; destruct ss; [inversion HS; subst; congruence|discriminate]).
  destruct (C63_assignment o words stm R H uss P NE' RR RH HU PP) as (chs & EC & FC).
  exists (map (observe words stm) chs). split; [rewrite E, EC by assumption; reflexivity|].
  clear - FC. induction FC as [|p c P chs (us & gs & lf & U & G & S) FC IH]; constructor; [|exact IH].
  exists us, gs, lf. split; [exact U|]. split; [exact G|]. unfold observe. cbn [fst].
  clear - S. induction S as [|x g l gs (A & _ & B & C) S IH]; constructor; [|exact IH]. cbn [fst snd]. auto.
Qed.

(** ** Findings *)
Definition num0 (s : str) : Z := Z.of_nat (length s).
(** ";; x" without a newline at the end of an STM file *)
Definition COMMENT : str := [59; 59; 32; 97; 32; 98; 32; 99; 32; 100; 32; 101; 32; 102]%N.
Theorem C67_unfinished_comment_refuted : exists line, stm_skips line /\ Line line [] /\
  exists s f, fill_STM num0 true {| rest := line; feof := false |} {| s_max := 200; s_s := 0; s_segs := [] |} =
    Ok ({| s_max := 200; s_s := 0; s_segs := [s] |}, f).
Proof.
  exists COMMENT. split; [left; eexists; reflexivity|]. split.
  { split; [discriminate|]. exists COMMENT. split; [|right; auto]. unfold COMMENT. repeat constructor; discriminate. }
  eexists. eexists. vm_compute. reflexivity.
Qed.
Theorem C67_unfinished_blank_refuted : exists line, stm_skips line /\ Line line [] /\
  fill_STM num0 true {| rest := line; feof := false |} {| s_max := 200; s_s := 0; s_segs := [] |} = Undef.
Proof.
  exists [32%N]. split; [right; right; repeat constructor|]. split.
  { split; [discriminate|]. exists [32%N]. split; [repeat constructor; discriminate|right; auto]. }
  vm_compute. reflexivity.
Qed.
(** A first word that begins with "<" is not in the text. *)
Theorem C67_first_word_refuted : exists line f c k b e w r s, no_nul line /\ Fields line (f :: c :: k :: b :: e :: w :: r) /\
  parse_stm_line num0 true line = Ok s /\ ~ Fields (text s) (w :: r).
Proof.
  exists [97; 32; 98; 32; 99; 32; 49; 32; 50; 32; 60; 104; 62; 32; 121; 10]%N, [97%N], [98%N], [99%N], [49%N], [50%N], [60; 104; 62]%N, [[121%N]].
  eexists. split; [repeat constructor; discriminate|]. split; [|split; [vm_compute; reflexivity|]].
  - assert (B : forall c, is_blank c <-> c = 32%N \/ c = 9%N \/ c = 10%N) by reflexivity.
    apply (f_cons [] [97%N]); [constructor|discriminate|repeat constructor; rewrite B; intros [X|[X|X]]; discriminate X|left; reflexivity|].
    apply (f_cons [32%N] [98%N]); [repeat constructor|discriminate|repeat constructor; rewrite B; intros [X|[X|X]]; discriminate X|left; reflexivity|].
    apply (f_cons [32%N] [99%N]); [repeat constructor|discriminate|repeat constructor; rewrite B; intros [X|[X|X]]; discriminate X|left; reflexivity|].
    apply (f_cons [32%N] [49%N]); [repeat constructor|discriminate|repeat constructor; rewrite B; intros [X|[X|X]]; discriminate X|left; reflexivity|].
    apply (f_cons [32%N] [50%N]); [repeat constructor|discriminate|repeat constructor; rewrite B; intros [X|[X|X]]; discriminate X|left; reflexivity|].
    apply (f_cons [32%N] [60; 104; 62]%N); [repeat constructor|discriminate|repeat constructor; rewrite B; intros [X|[X|X]]; discriminate X|left; reflexivity|].
    apply (f_cons [32%N] [121%N]); [repeat constructor|discriminate|repeat constructor; rewrite B; intros [X|[X|X]]; discriminate X|right; right; reflexivity|].
    apply f_nil. constructor; [right; right; reflexivity|constructor].
  - cbn [text l_seg]. intro F. inversion F as [|b0 w0 r0 ws0 Fb W0 Fw D Fr E0 E1].
    subst w0. destruct b0 as [|x b0]; [discriminate E0|]. cbn [app] in E0. injection E0 as E2 E0. subst x.
    apply Forall_inv in Fb. destruct Fb as [X|[X|X]]; discriminate X.
Qed.
(** A line of blanks, or with too few fields, of a CTM file. *)
Theorem C68_short_line_refuted : exists line, line <> [] /\ line <> [10%N] /\ no_nul line /\ parse_ctm_line num0 true line = Undef.
Proof. exists [32; 10]%N. split; [discriminate|]. split; [discriminate|]. split; [repeat constructor; discriminate|]. vm_compute. reflexivity. Qed.
(** A field of 500 bytes does not fit. *)
Theorem C68_long_field_refuted : exists line ws, no_nul line /\ Fields line ws /\ (5 <= length ws)%nat /\ parse_ctm_line num0 true line = Undef.
Proof.
  set (w := repeat 97%N LINE_LENGTH).
  assert (Hb : ~ is_blank 97%N /\ ~ is_blank 49%N) by (split; intros [X|[X|X]]; discriminate X).
  assert (F : Fields (w ++ [32; 97; 32; 49; 32; 49; 32; 97; 10]%N) [w; [97%N]; [49%N]; [49%N]; [97%N]]).
  { apply (f_cons [] w); [constructor|discriminate| |left; reflexivity|].
    - apply Forall_forall. intros x Hx. apply repeat_spec in Hx. subst x. apply Hb.
    - apply (f_cons [32%N] [97%N]); [repeat constructor|discriminate|repeat constructor; apply Hb|left; reflexivity|].
      apply (f_cons [32%N] [49%N]); [repeat constructor|discriminate|repeat constructor; apply Hb|left; reflexivity|].
      apply (f_cons [32%N] [49%N]); [repeat constructor|discriminate|repeat constructor; apply Hb|left; reflexivity|].
      apply (f_cons [32%N] [97%N]); [repeat constructor|discriminate|repeat constructor; apply Hb|right; right; reflexivity|].
      apply f_nil. constructor; [right; right; reflexivity|constructor]. }
  exists (w ++ [32; 97; 32; 49; 32; 49; 32; 97; 10]%N), [w; [97%N]; [49%N]; [49%N]; [97%N]].
  split; [|split; [exact F|split; [cbn [length]; lia|vm_compute; reflexivity]]].
  apply Forall_app. split; [apply Forall_forall; intros x Hx; apply repeat_spec in Hx; subst x; discriminate|repeat constructor; discriminate].
Qed.

(** ** Examples: lines of fields with a blank after each. *)
Definition mkline (ws : list str) : str := flat_map (fun w => w ++ [32%N]) ws ++ [10%N].
Definition plain (c : N) : Prop := (33 <= c)%N.
Lemma mkline_fields ws : Forall (fun w => w <> [] /\ Forall plain w) ws -> forall p, p = [] \/ p = [32%N] -> Fields (p ++ mkline ws) ws.
Proof.
  intros F. assert (B : forall c, plain c -> ~ is_blank c) by (unfold plain; intros c Hc [X|[X|X]]; subst c; apply Hc; reflexivity).
  induction F as [|w ws [NE PW] F IH]; intros p Hp.
  - apply f_nil. destruct Hp as [->| ->]; cbn [app mkline flat_map]; repeat constructor; (right; right; reflexivity) || (left; reflexivity).
  - unfold mkline. cbn [flat_map]. rewrite <- !app_assoc. apply f_cons.
    + destruct Hp as [->| ->]; repeat constructor.
    + exact NE.
    + eapply Forall_impl; [|exact PW]. exact B.
    + left. reflexivity.
    + apply (IH [32%N]). auto.
Qed.
Lemma mkline_line ws r : Forall (fun w => w <> [] /\ Forall plain w) ws -> Line (mkline ws) r /\ no_nul (mkline ws).
Proof.
  intros F. assert (X : Forall (fun c => c <> 10%N /\ c <> 0%N) (flat_map (fun w => w ++ [32%N]) ws)).
  { induction F as [|w ws [_ PW] F IH]; cbn [flat_map]; [constructor|]. apply Forall_app. split; [|exact IH]. apply Forall_app. split.
    - eapply Forall_impl; [|exact PW]. unfold plain. intros c Hc. split; intros ->; apply Hc; reflexivity.
    - repeat constructor; discriminate. }
  split.
  - split; [unfold mkline; destruct (flat_map _ ws); discriminate|]. exists (flat_map (fun w => w ++ [32%N]) ws). split; [|left; reflexivity].
    eapply Forall_impl; [|exact X]. intros c Hc; apply Hc.
  - unfold no_nul, mkline. apply Forall_app. split; [eapply Forall_impl; [|exact X]; intros c Hc; apply Hc|repeat constructor; discriminate].
Qed.
Definition good (ws : list str) : Prop :=
  Forall (fun w => w <> [] /\ Forall plain w) ws /\ (5 <= length ws)%nat /\ Forall (fun w => (length w < 500)%nat) (firstn 7 ws) /\
  match ws with (c :: _) :: _ => (64 <= c)%N | _ => False end.
Lemma ex_stm wss : Forall good wss -> StmText true (flat_map mkline wss) wss.
Proof.
  induction 1 as [|ws wss (A & B & C & D) F IH]; cbn [flat_map]; [constructor|]. destruct (mkline_line ws (flat_map mkline wss) A) as [L N0].
  apply st_seg; auto; [|exact (mkline_fields ws A [] (or_introl eq_refl))].
  destruct ws as [|[|c w] ws]; try contradiction. unfold mkline. cbn [flat_map app].
  intros [(x & X)|[(x & X)|X]]; [injection X as -> _; apply D; reflexivity|injection X as -> _; apply D; reflexivity|].
  apply Forall_inv in X. destruct X as [-> |X]; [apply D; reflexivity|lia].
Qed.
Lemma ex_ctm wss : Forall good wss -> CtmText true (flat_map mkline wss) wss.
Proof.
  induction 1 as [|ws wss (A & B & C & D) F IH]; cbn [flat_map]; [constructor|]. destruct (mkline_line ws (flat_map mkline wss) A) as [L N0].
  apply ct_word; auto; [|exact (mkline_fields ws A [] (or_introl eq_refl))].
  destruct ws as [|[|c w] ws]; try contradiction. unfold mkline. cbn [flat_map app hd_error]. intro X. injection X as ->. apply D. reflexivity.
Qed.
(** Files A, B and C with two channels; more segments and words than the windows hold. *)
Definition numd (s : str) : Z := match s with c :: _ => Z.of_N c - 48 | [] => 0 end.
Definition xs (f c : N) (b e : N) (t : str) : list str := [[f]; [c]; [115]; [b]; [e]; t]%N.
Definition xw (f c : N) (b : N) (t : str) : list str := [[f]; [c]; [b]; [49]; t]%N.
Definition ex_ref : list (list str) :=
  [xs 65 97 48 50 [119]; xs 65 97 50 52 [120]; xs 65 97 52 54 [121]; xs 65 98 48 50 [120]; xs 66 97 48 52 [119]; xs 66 97 52 57 [122]; xs 67 97 48 50 [119]]%N.
Definition ex_hyp : list (list str) :=
  [xw 65 97 48 [119]; xw 65 97 49 [120]; xw 65 97 50 [120]; xw 65 97 52 [121]; xw 65 97 53 [121]; xw 65 98 48 [120]; xw 66 97 51 [119]; xw 66 97 54 [122]; xw 67 97 48 [119]]%N.
Definition ex_o : opts := {| reduce_ref := false; reduce_hyp := false; feedback := false; ups := 1 |}.
Definition sizes (r : res (option (list seen))) : list (list nat) :=
  match r with Ok (Some vs) => map (fun v : seen => map (fun x => length (snd (fst x))) (fst v)) vs | _ => [] end.

Example ex_good : Forall good ex_ref /\ Forall good ex_hyp.
Proof.
  split; repeat constructor; cbv; try discriminate; try lia; auto.
Qed.
Example ex_windows : StmText true (flat_map mkline ex_ref) ex_ref /\ CtmText true (flat_map mkline ex_hyp) ex_hyp /\
  sizes (align_files numd numd true ex_o 2 4 (flat_map mkline ex_ref) (flat_map mkline ex_hyp)) = [[2; 1; 2]; [1]; [1; 1]; [1]]%nat /\
  align_files numd numd true ex_o 2 4 (flat_map mkline ex_ref) (flat_map mkline ex_hyp) =
  align_files numd numd true ex_o 200 5000 (flat_map mkline ex_ref) (flat_map mkline ex_hyp).
Proof.
  split; [apply ex_stm, ex_good|]. split; [apply ex_ctm, ex_good|]. split; vm_compute; reflexivity.
Qed.
(** A line of each kind. *)
Example ex_line : exists s, parse_stm_line numd true (mkline [[65]; [97]; [115]; [48]; [50]; [60; 111; 62]; [119]; [120; 121]]%N) = Ok s /\
  l_label s = Some [60; 111; 62]%N /\ s_t2 s = 2 /\ text s = [119; 32; 120; 121; 32]%N.
Proof. eexists. split; [vm_compute; reflexivity|]. auto. Qed.
Example ex_word : exists w, parse_ctm_line numd true (mkline [[65]; [97]; [38; 38; 51]; [49]; [119]; [78; 97]; [53]]%N) = Ok w /\
  c_bad w = true /\ t1 w = 3 /\ c_conf w = None /\ c_corr w = Some 5.
Proof. eexists. split; [vm_compute; reflexivity|]. auto. Qed.
Print Assumptions C67_fields_total.
Print Assumptions C67_line.
Print Assumptions C67_line_total.
Print Assumptions C67_file.
Print Assumptions C68_line.
Print Assumptions C68_file.
Print Assumptions C69_windows.
Print Assumptions C69_any_size.
Print Assumptions C69_scored.
Print Assumptions C67_unfinished_comment_refuted.
Print Assumptions C67_unfinished_blank_refuted.
Print Assumptions C67_first_word_refuted.
Print Assumptions C68_short_line_refuted.
Print Assumptions C68_long_field_refuted.
