(** C94: asclite's RTTM files, read by turns, and the expansion of alternations. *)
From Coq Require Import String List NArith ZArith Arith Bool Ascii Lia Sorted.
From Verif Require Import Base Store_Model Store_Proofs Segm_Model Links_Model Token_Model Alt_Model Alt_Spec AsTrn_Model AsTrn_Spec AsTrn_Proofs AsStm_Model AsStm_Spec AsStm_Proofs1 AsStm_Thm Rttm_Model Rttm_Spec Rttm_Proofs1 Rttm_Proofs3 Rttm_Proofs4 Rttm_Proofs5 Rttm_Proofs6.
Import ListNotations.
Local Open Scope res_scope.
Local Notation length := List.length.

(** The token of a word: its text as written and its times *)
Definition word_token (ms : str -> Z) (g : lexeme) (t : atok) : Prop :=
  exists s, written g s /\ t = {| at_text := string_of_list_ascii s; at_start := ms (g_b g); at_dur := ms (g_d g); at_opt := false |}.
(** The confidence of a word, if it has one *)
Definition confidence (g : lexeme) (c : option str) : Prop := (g_conf g = bytes "<NA>" /\ c = None) \/ (g_conf g <> bytes "<NA>" /\ c = Some (g_conf g)).

Lemma tokens_are ms ws : Forall2 (word_token ms) ws (map (tok_of ms) ws).
Proof. induction ws as [|g ws IH]; constructor; [|exact IH]. exists (chars g). split; [apply written_iff; reflexivity|reflexivity]. Qed.
Lemma confs_are ws : Forall2 confidence ws (map conf_of ws).
Proof.
  induction ws as [|g ws IH]; constructor; [|exact IH]. unfold confidence, conf_of. destruct (str_eqb_dec (g_conf g) NA) as [(E & ->)|(E & ->)]; [left|right]; auto.
Qed.
(** A file whose words fit their turns and whose alternatives are well formed is read as one speech for
    each speaker with a turn, in the order of the speakers' names, with a segment for each turn, in the
    order of the file; the segment of a turn can be read exactly as the words of the turn.  The tokens
    begin with the words said in a turn, in the order of the file, with their times and confidences. *)
Theorem C94_loaded : forall ms o fuel file ls es,
  file_lines file ls -> lines_say 0 ls es -> (forall s, Forall (in_time ms) (turns s es)) -> Forall (fun g => 0 <= ms (g_d g) /\ readable o fuel g)%Z (said [] es) ->
  exists st set names confs words more,
    load_speakers ms o fuel file = Ok (st, set, confs)
    /\ StronglySorted before names /\ (forall s, In s names <-> turns s es <> [])
    /\ Forall2 (fun s speech => turn_segments o ms st 0 (turns s es) speech) names set
    /\ ps_toks st = words ++ more /\ Forall2 (word_token ms) (said [] es) words /\ Forall2 confidence (said [] es) confs.
Proof.
  intros ms o fuel file ls es FL LS TI GD. destruct (loaded ms o fuel file ls es FL LS TI GD) as (st & set & names & E & S & NM & F & (more & ET)).
  exists st, set, names, (map conf_of (said [] es)), (map (tok_of ms) (said [] es)), more. split; [exact E|]. split; [exact S|]. split; [exact NM|]. split; [eapply Forall2_weaken; [|exact F]; intros a b _ (K & _); exact K|].
  split; [exact ET|]. split; [apply tokens_are|apply confs_are].
Qed.
Print Assumptions C94_loaded.

(** The links go on from turn to turn: from the first token of a turn to the last token of a later one
    of the same speaker, exactly the words of the two and of the turns between them can be read. *)
Theorem C94_speech_reads : forall ms o fuel file ls es,
  file_lines file ls -> lines_say 0 ls es -> (forall s, Forall (in_time ms) (turns s es)) -> Forall (fun g => 0 <= ms (g_d g) /\ readable o fuel g)%Z (said [] es) ->
  exists st set names confs,
    load_speakers ms o fuel file = Ok (st, set, confs) /\ (forall s, In s names <-> turns s es <> [])
    /\ Forall2 (fun s speech => forall p X m Y r p' x m' y r',
         turns s es = p ++ X :: m ++ Y :: r -> speech = p' ++ x :: m' ++ y :: r' -> length p' = length p -> length m' = length m -> snd X <> [] -> snd Y <> [] ->
         forall w, reads st (sg_first (r_seg x)) (sg_last (r_seg y)) w
           <-> exists parts, Forall2 (word_reads o) (snd X ++ concat (map snd m) ++ snd Y) parts /\ w = concat parts) names set.
Proof.
  intros ms o fuel file ls es FL LS TI GD. destruct (loaded ms o fuel file ls es FL LS TI GD) as (st & set & names & E & S & NM & F & _).
  exists st, set, names, (map conf_of (said [] es)). split; [exact E|]. split; [exact NM|]. eapply Forall2_weaken; [|exact F]. intros a b _ (_ & K). exact K.
Qed.
Print Assumptions C94_speech_reads.

(** A word without a brace and without an underscore is read as it is written, and always can be. *)
Theorem C94_plain_word : forall o g, g_word g <> [] -> (forall b, In b (g_word g) -> ascii_of_N b <> "{"%char /\ ascii_of_N b <> "_"%char) ->
  (forall fuel, readable o fuel g) /\ forall p, word_reads o g p <-> exists s, written g s /\ p = [string_of_list_ascii s].
Proof.
  intros o g NE PL. assert (PC : forall c, In c (chars g) -> c <> "{"%char /\ c <> "_"%char).
  { intros c Hc. unfold chars in Hc. apply in_map_iff in Hc. destruct Hc as (b & <- & Hb). destruct (among _ OPTIONAL); [|apply PL, Hb]. rewrite !in_app_iff in Hb. destruct Hb as [[<-|[]]|[Hb|[<-|[]]]]; [split; discriminate|apply PL, Hb|split; discriminate]. }
  destruct (get_text_total o (chars g) (chars_named g NE)) as (text & tk & GT & IN).
  assert (NX : ~ expandable text). { intros ([K|K] & _); apply IN, PC in K; destruct K; congruence. }
  split.
  - intros fuel s text' tk' WR GT' EX. apply written_iff in WR. subst s. rewrite GT in GT'. injection GT' as <- <-. contradiction.
  - intros p. split.
    + intros [s text' tk' WR GT' _|s text' tk' a x WR GT' EX _ _ _ _]; [exists s; auto|]. apply written_iff in WR. subst s. rewrite GT in GT'. injection GT' as <- <-. contradiction.
    + intros (s & WR & ->). apply (wr_plain o g s text tk WR); [apply written_iff in WR; subst s; exact GT|exact NX].
Qed.
Print Assumptions C94_plain_word.

(** A file without turns has no speeches: words outside a turn are lost. *)
Theorem C94_no_turns : forall ms o fuel file ls es, file_lines file ls -> lines_say 0 ls es -> (forall q, ~ In (ETurn q) es) -> exists st, load_speakers ms o fuel file = Ok (st, [], []) /\ ps_toks st = [].
Proof.
  intros ms o fuel file ls es FL LS NT. assert (T : forall s, turns s es = []). { intros s. clear - NT. induction es as [|e es IH]; [reflexivity|]. assert (IH' := IH (fun q K => NT q (or_intror K))). destruct e as [q|g|]; [destruct (NT q); left; reflexivity|exact IH'|exact IH']. }
  assert (W : said [] es = []). { clear - NT. induction es as [|e es IH]; [reflexivity|]. assert (IH' := IH (fun q K => NT q (or_intror K))). destruct e as [q|g|]; [destruct (NT q); left; reflexivity| |exact IH']. cbn [said]. destruct (in_dec (list_eq_dec N.eq_dec) (g_spkr g) []) as [[]|_]. exact IH'. }
  unfold load_speakers. rewrite (getlines_ok _ _ FL). assert (TI : forall s, Forall (in_time ms) (turns s ([] ++ es))) by (intros s; cbn [app]; rewrite T; constructor). destruct (steps_ok ms 0 ls es LS [] first_y (fun _ => []) (y_begin ms) TI) as (t & css & n & -> & IV). cbn [app] in IV. cbn [rbind].
  assert (M : y_map t = []). { destruct (y_map t) as [|(k, l) m] eqn:E; [reflexivity|]. destruct (proj1 (y_names _ _ _ _ _ IV k)); [rewrite E; left; reflexivity|apply T]. }
  rewrite M. cbn [map close_set rbind expand_set fold_left]. rewrite (y_conf _ _ _ _ _ IV), W. eexists. split; [reflexivity|]. cbn [ps_toks]. rewrite (y_toks _ _ _ _ _ IV), W. reflexivity.
Qed.
Print Assumptions C94_no_turns.

(** Findings *)
Lemma buf_none : forall i bufs, length bufs <= i -> buf bufs i = Undef.
Proof. unfold buf. induction i as [|i IH]; intros [|b bufs] L; cbn in L |- *; try reflexivity; [lia|]. apply IH. lia. Qed.
(** A line of a word with fewer than seven fields leaves the kind of word undefined. *)
Theorem C94_few_words_refuted : forall ms l t ws, headed "LEXEME" l -> spaced l ws -> length ws < 7 -> Forall short ws -> spk_step ms l t = Undef.
Proof.
  intros ms l t ws HD SP L SH. unfold spk_step. cbv zeta. destruct (begins (bytes ";;") l) eqn:B0; [apply begins_iff in B0; destruct HD as (r & ->); destruct B0 as (r' & K); discriminate|].
  destruct (begins (bytes "SPEAKER") l) eqn:B1; [apply begins_iff in B1; destruct (headed_apart l B1 HD)|]. rewrite (proj2 (begins_iff "LEXEME" l) HD).
  assert (FN : firstn 9 ws = ws) by (apply firstn_all2; lia). rewrite (pieces_spaced _ _ SP), scan_ok by (rewrite FN; exact SH). rewrite FN. cbn [rbind]. rewrite (buf_none 6 ws (le_S_n _ _ L)). reflexivity.
Qed.
Print Assumptions C94_few_words_refuted.

Definition both : options := {| op_optdel := true; op_fragok := true; op_case := false |}.
Definition neither : options := {| op_optdel := false; op_fragok := false; op_case := false |}.
(** Id and the walks of a segment, up to a number of tokens *)
Fixpoint walks (n : nat) (h : links) (lasts : list nat) (a : nat) : list (list nat) :=
  match n with
  | O => []
  | S n => (if existsb (Nat.eqb a) lasts then [[a]] else []) ++ flat_map (fun b => map (cons a) (walks n h lasts b)) (nxt h a)
  end.
Definition read_turns (o : options) (ls : list string) : res (list (list (string * list (list string)))) :=
  let text s := string_of_list_ascii (map ascii_of_N s) in
  let* (st, set, _) := load_speakers cents o 30 (file_of ls) in
  Ok (map (map (fun x => (text (r_id x), map (map (src st)) (flat_map (walks 10 (ps_links st) (sg_last (r_seg x))) (sg_first (r_seg x)))))) set).
(** An underscore makes a word of two, and without the marks of optional words a parenthesis stays on
    each half. *)
Theorem C94_underscore_refuted :
  read_turns both ["SPEAKER f 1 0 9 <NA> <NA> s <NA>"; "LEXEME f 1 0 3 new_york lex s 0.5"; "LEXEME f 1 3 3 uh_huh fp s 0.5"]%string
    = Ok [[("(s-000)", [["new"; "york"; "(uh)"; "(huh)"]])]]%string
  /\ read_turns neither ["SPEAKER f 1 0 9 <NA> <NA> s <NA>"; "LEXEME f 1 3 3 uh_huh fp s 0.5"]%string = Ok [[("(s-000)", [["(uh"; "huh)"]])]]%string.
Proof. split; vm_compute; reflexivity. Qed.
Print Assumptions C94_underscore_refuted.
(** The empty alternative is lost when a word is expanded, and a word with nothing else cuts the turn. *)
Theorem C94_empty_alternative_refuted :
  read_turns both ["SPEAKER f 1 0 9 <NA> <NA> s <NA>"; "LEXEME f 1 0 3 a lex s 0.5"; "LEXEME f 1 3 3 {_b_/_@_} lex s 0.5"; "LEXEME f 1 6 3 c lex s 0.5"]%string = Ok [[("(s-000)", [["a"; "b"; "c"]])]]%string
  /\ read_turns both ["SPEAKER f 1 0 9 <NA> <NA> s <NA>"; "LEXEME f 1 0 3 a lex s 0.5"; "LEXEME f 1 3 3 _ lex s 0.5"; "LEXEME f 1 6 3 c lex s 0.5"]%string = Ok [[("(s-000)", [])]]%string.
Proof. split; vm_compute; reflexivity. Qed.
Print Assumptions C94_empty_alternative_refuted.
(** A word given before the first turn of its speaker is lost; one given after a turn belongs to it,
    whatever its times, unless it is the first or the last of the turn. *)
Theorem C94_order_refuted :
  read_turns both ["LEXEME f 1 0 3 a lex s 0.5"; "SPEAKER f 1 0 3 <NA> <NA> s <NA>"]%string = Ok [[("(s-000)", [])]]%string
  /\ read_turns both ["SPEAKER f 1 0 9 <NA> <NA> s <NA>"; "LEXEME f 1 0 3 a lex s 0.5"; "LEXEME f 1 70 3 b lex s 0.5"; "LEXEME f 1 6 3 c lex s 0.5"]%string = Ok [[("(s-000)", [["a"; "b"; "c"]])]]%string
  /\ read_turns both ["SPEAKER f 1 0 9 <NA> <NA> s <NA>"; "LEXEME f 1 70 3 b lex s 0.5"]%string = Exit.
Proof. repeat split; vm_compute; reflexivity. Qed.
Print Assumptions C94_order_refuted.

(** ** Examples *)
Definition bfile : list string := [";; a comment"; "SPEAKER f 1 0 9 <NA> <NA> bob <NA>"; "LEXEME f 1 0 3 well lex bob 0.5"; "SPEAKER f 1 2 8 <NA> <NA> ann <NA>"; "LEXEME f 1 2 2 uh FP ann <NA>";
  "LEXEME f 1 3 3 {_new_york_/_ny_} lex bob 0.25"; "LEXEME f 1 4 1 cough other ann <NA>"; "LEXEME f 1 4 2 no lex carol 0.5"; "SPEAKER f 1 20 5 <NA> <NA> bob <NA>"; "SPEAKER f 1 30 5 <NA> <NA> bob <NA>"; "LEXEME f 1 31 1 bye lex bob 0.75 x"]%string.
Definition turn_at (n : nat) (b d s : string) : event := ETurn {| t_line := n; t_src := bytes "f"; t_chan := bytes "1"; t_b := bytes b; t_d := bytes d; t_spkr := bytes s |}.
Definition word_at (n : nat) (b d w k s c : string) : event :=
  EWord {| g_line := n; g_src := bytes "f"; g_chan := bytes "1"; g_b := bytes b; g_d := bytes d; g_word := bytes w; g_type := bytes k; g_spkr := bytes s; g_conf := bytes c |}.
Definition bevents : list event := [ENone; turn_at 1 "0" "9" "bob"; word_at 2 "0" "3" "well" "lex" "bob" "0.5"; turn_at 3 "2" "8" "ann"; word_at 4 "2" "2" "uh" "FP" "ann" "<NA>";
  word_at 5 "3" "3" "{_new_york_/_ny_}" "lex" "bob" "0.25"; ENone; word_at 7 "4" "2" "no" "lex" "carol" "0.5"; turn_at 8 "20" "5" "bob"; turn_at 9 "30" "5" "bob"; word_at 10 "31" "1" "bye" "lex" "bob" "0.75"].
Definition shorts (ws : list str) : bool := forallb (fun w => Nat.ltb (length w) (N.to_nat 255)) ws.
Lemma turn_is n l ty src chan b d x y spkr more : pieces isspace [] l = [ty; src; chan; b; d; x; y; spkr] ++ more -> begins (bytes "SPEAKER") l && shorts (firstn 9 ([ty; src; chan; b; d; x; y; spkr] ++ more)) = true ->
  line_says n l (ETurn {| t_line := n; t_src := src; t_chan := chan; t_b := b; t_d := d; t_spkr := spkr |}).
Proof. intros P H. apply andb_true_iff in H. destruct H as (H1 & H2). exact (ls_turn n l ty src chan b d x y spkr more (proj1 (begins_iff "SPEAKER" l) H1) (spaced_is _ _ P) (short_is _ H2)). Qed.
Lemma word_is' n l ty src chan b d w k spkr conf more : pieces isspace [] l = [ty; src; chan; b; d; w; k; spkr; conf] ++ more ->
  begins (bytes "LEXEME") l && shorts (firstn 10 ([ty; src; chan; b; d; w; k; spkr; conf] ++ more)) && among (map AsStm_Model.lower k) KEPT = true ->
  line_says n l (EWord {| g_line := n; g_src := src; g_chan := chan; g_b := b; g_d := d; g_word := w; g_type := k; g_spkr := spkr; g_conf := conf |}).
Proof.
  intros P H. apply andb_true_iff in H. destruct H as (H & H3). apply andb_true_iff in H. destruct H as (H1 & H2).
  exact (ls_word n l ty src chan b d w k spkr conf more (proj1 (begins_iff "LEXEME" l) H1) (spaced_is _ _ P) (short_is _ H2) (proj1 (kept_iff k) H3)).
Qed.
Ltac says_turn := apply (turn_is _ _ (bytes "SPEAKER") _ _ _ _ (bytes "<NA>") (bytes "<NA>") _ [bytes "<NA>"]); vm_compute; reflexivity.
Ltac says_word more := apply (word_is' _ _ (bytes "LEXEME") _ _ _ _ _ _ _ _ more); vm_compute; reflexivity.
Example bfile_says : file_lines (file_of bfile) (map bytes bfile) /\ lines_say 0 (map bytes bfile) bevents.
Proof.
  split; [split; [repeat (constructor; [not_there|]); constructor|left; reflexivity]|].
  assert (NOT : forall p l, begins (bytes p) l = false -> ~ headed p l) by (intros p l; apply begins_not).
  unfold bfile, bevents. cbn [map]. constructor; [apply ls_other; apply NOT; reflexivity|]. constructor; [says_turn|]. constructor; [says_word (@nil str)|]. constructor; [says_turn|]. constructor; [says_word (@nil str)|]. constructor; [says_word (@nil str)|].
  constructor.
  { apply (ls_dropped _ _ (map bytes ["LEXEME"; "f"; "1"; "4"; "1"; "cough"]%string) (bytes "other") (map bytes ["ann"; "<NA>"]%string)); [apply begins_iff; reflexivity|apply spaced_is; reflexivity|reflexivity|apply short_is; vm_compute; reflexivity|]. intros K. apply kept_iff in K. discriminate. }
  constructor; [says_word (@nil str)|]. constructor; [says_turn|]. constructor; [says_turn|]. constructor; [says_word [bytes "x"]|]. constructor.
Qed.
Definition a_york : alts := AOne (SCons (IGroup (AMore (SCons (IWord "new") (SCons (IWord "york") SNil)) (AOne (SCons (IWord "ny") SNil)))) SNil).
Example bfile_fits : (forall s, Forall (in_time cents) (turns s bevents)) /\ Forall (fun g => 0 <= cents (g_d g) /\ readable both 30 g)%Z (said [] bevents).
Proof.
  split.
  - intros s. cbn [bevents turns words_until turn_at word_at t_spkr g_spkr]. destruct (list_eq_dec N.eq_dec (bytes "bob") s) as [<-|N1].
    + destruct (list_eq_dec N.eq_dec (bytes "ann") (bytes "bob")); [discriminate|]. destruct (list_eq_dec N.eq_dec (bytes "carol") (bytes "bob")); [discriminate|]. repeat constructor; vm_compute; discriminate.
    + destruct (list_eq_dec N.eq_dec (bytes "ann") s) as [<-|N2]; [|constructor]. destruct (list_eq_dec N.eq_dec (bytes "carol") (bytes "ann")); [discriminate|]. repeat constructor; vm_compute; discriminate.
  - assert (PL : forall g, g_word g <> [] -> forallb (fun b => negb (Ascii.eqb (ascii_of_N b) "{") && negb (Ascii.eqb (ascii_of_N b) "_")) (g_word g) = true -> readable both 30 g).
    { intros g NE F. apply (C94_plain_word both g NE). intros b Hb. rewrite forallb_forall in F. specialize (F b Hb). apply andb_true_iff in F. destruct F as (F1 & F2). apply negb_true_iff, Ascii.eqb_neq in F1, F2. auto. }
    assert (H : forall w r, ~ says_seq (SCons (IWord w) r) []). { intros w r H. inversion H as [|? ? ? ? H1 H2 H3 H4]; subst. inversion H1; subst. discriminate. }
    let x := eval vm_compute in (said [] bevents) in assert (E : said [] bevents = x) by (vm_compute; reflexivity); rewrite E; clear E.
    constructor; [split; [vm_compute; discriminate|apply PL; [discriminate|vm_compute; reflexivity]]|]. constructor; [split; [vm_compute; discriminate|apply PL; [discriminate|vm_compute; reflexivity]]|].
    constructor; [split; [vm_compute; discriminate|]|].
    { intros s text tk WR GT EX. apply written_iff in WR. subst s. vm_compute in GT. injection GT as <- <-. exists a_york. split; [vm_compute; reflexivity|]. split; [unfold a_york; cbn; unfold plain, solid; cbn; repeat split; try discriminate; auto|cbn; lia]. }
    constructor; [split; [vm_compute; discriminate|apply PL; [discriminate|vm_compute; reflexivity]]|]. constructor.
Qed.
Example bfile_read : read_turns both bfile = Ok [[("(ann-000)", [["(uh)"]])]; [("(bob-000)", [["well"; "new"; "york"]; ["well"; "ny"]]); ("(bob-001)", []); ("(bob-002)", [["bye"]])]]%string.
Proof. vm_compute. reflexivity. Qed.
Example few_words_met : read_turns both ["LEXEME f 1 0 3 a"]%string = Undef.
Proof. vm_compute. reflexivity. Qed.
