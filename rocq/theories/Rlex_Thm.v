(** C95: asclite's RTTM files, read word by word. *)
From Coq Require Import String List NArith ZArith Arith Bool Ascii Lia Sorted.
From Verif Require Import Base Store_Model Store_Proofs Segm_Model Links_Model Token_Model Alt_Model Alt_Spec AsTrn_Model AsTrn_Spec AsTrn_Proofs AsStm_Model AsStm_Spec AsStm_Proofs1 AsStm_Thm Rttm_Model Rttm_Spec Rttm_Proofs1 Rttm_Proofs3 Rttm_Proofs4 Rttm_Proofs5 Rttm_Proofs6 Rttm_Thm Rlex_Spec Rlex_Proofs Rlex_Proofs3 Rlex_Proofs4.
Import ListNotations.
Local Open Scope res_scope.
Local Notation length := List.length.

(** A file with words, all of them with well-formed alternatives, is read as one speech for each speaker
    with a word, in the order of the speakers' names, with a segment for each word, in the order of the
    file; the segment can be read exactly as the word.  The options make no difference. *)
Theorem C95_loaded : forall ms fuel file ls gs,
  file_lines file ls -> words_say 0 ls gs -> Forall (understandable ms fuel) gs -> gs <> [] ->
  exists st set names, (forall o, load_lexemes ms o fuel file = Ok (st, set))
    /\ StronglySorted before names /\ (forall s, In s names <-> of_speaker s 0 gs <> [])
    /\ Forall2 (fun s speech => lexeme_segments ms st gs 0 (of_speaker s 0 gs) speech) names set.
Proof.
  intros ms fuel file ls gs FL WS UN NE. destruct (Rlex_Proofs4.loaded ms fuel file ls gs FL WS UN NE) as (st & set & names & E & S & NM & F). exists st, set, names. split; [exact E|]. split; [exact S|]. split; [exact NM|].
  eapply Forall2_weaken; [|exact F]. intros a b _ (K & _). exact K.
Qed.
Print Assumptions C95_loaded.

(** The links go on from word to word: from the first token of a word to the last token of the same or a
    later word of the same speaker, exactly the words of the speaker from the one to the other can be
    read. *)
Theorem C95_speech_reads : forall ms fuel file ls gs,
  file_lines file ls -> words_say 0 ls gs -> Forall (understandable ms fuel) gs -> gs <> [] ->
  exists st set names, (forall o, load_lexemes ms o fuel file = Ok (st, set)) /\ (forall s, In s names <-> of_speaker s 0 gs <> [])
    /\ Forall2 (fun s speech => forall p z m r p' y m' r',
         of_speaker s 0 gs = p ++ z :: m ++ r -> speech = p' ++ y :: m' ++ r' -> length p' = length p -> length m' = length m ->
         forall w, reads st (sg_first (r_seg y)) (sg_last (r_seg (last m' y))) w
           <-> exists parts, Forall2 lexeme_reads (map snd (z :: m)) parts /\ w = concat parts) names set.
Proof.
  intros ms fuel file ls gs FL WS UN NE. destruct (Rlex_Proofs4.loaded ms fuel file ls gs FL WS UN NE) as (st & set & names & E & S & NM & F). exists st, set, names. split; [exact E|]. split; [exact NM|].
  eapply Forall2_weaken; [|exact F]. intros a b _ (_ & K). exact K.
Qed.
Print Assumptions C95_speech_reads.

(** A word without special characters is understood, and read as it is written, in parentheses if it need
    not be said. *)
Definition ordinary (c : ascii) : Prop := ~ In c ["{"; "}"; "/"; "@"; "_"; "#"; " "; "009"; "010"; "013"]%char.
Lemma ordinary_chars c : ordinary c -> is_special c = false /\ is_sep c = false /\ Ascii.eqb c "_" = false /\ Ascii.eqb c "#" = false.
Proof.
  unfold ordinary, is_special, is_sep. cbn [In]. intros H. assert (K : forall d, (d = c -> False) -> Ascii.eqb c d = false) by (intros d N; apply Ascii.eqb_neq; intros E; apply N; auto). rewrite !K by tauto. auto.
Qed.
Lemma ordinary_line s : s <> [] -> Forall ordinary s -> as_line s = [string_of_list_ascii s].
Proof.
  intros NE F. unfold as_line, lex. assert (R : replace_char "#" " " (replace_char "_" " " s) = s).
  { clear NE. induction F as [|c s OC F IH]; [reflexivity|]. destruct (ordinary_chars c OC) as (_ & _ & E1 & E2). unfold replace_char in *. cbn [map]. rewrite E1, E2. f_equal. exact IH. }
  assert (P : flat_map (fun c => if is_special c then [" "%char; c; " "%char] else [c]) s = s).
  { clear NE R. induction F as [|c s OC F IH]; [reflexivity|]. destruct (ordinary_chars c OC) as (E & _). cbn [flat_map]. rewrite E. cbn [app]. f_equal. exact IH. }
  rewrite R, P. unfold split_words. assert (G : forall l cur, Forall ordinary l -> cur <> [] \/ l <> [] -> split_from cur l = [string_of_list_ascii (rev cur ++ l)]).
  { clear. induction l as [|c l IH]; intros cur F N; cbn [split_from].
    - rewrite app_nil_r. destruct cur; [destruct N as [N|N]; congruence|reflexivity].
    - inversion F as [|? ? OC F2]; subst. destruct (ordinary_chars c OC) as (_ & E & _). rewrite E, IH; [cbn [rev]; rewrite <- app_assoc; reflexivity|exact F2|left; discriminate]. }
  apply (G s [] F). right. exact NE.
Qed.
Lemma word_as_list s a x : as_line s = print_alts a -> ok_line a -> says_alts a x -> forall w, as_line s = [w] -> x <> [] -> x = [w].
Proof.
  intros E OK SA w EW NE. rewrite E in EW. clear E s. assert (LI : (forall i, print_item i <> []) ) by (intros []; discriminate).
  assert (SEQ : forall sq y u, ok_seq sq -> print_seq sq = [u] -> says_seq sq y -> y <> [] -> y = [u]).
  { intros sq y u OS EP SS NY. destruct sq as [|i sq]; [discriminate|]. cbn [print_seq] in EP. pose proof (LI i) as N1. destruct (print_item i) as [|p l] eqn:EI; [congruence|]. cbn [app] in EP. injection EP as -> EP. apply app_eq_nil in EP. destruct EP as (-> & EP). destruct sq as [|i2 sq]; [|cbn [print_seq] in EP; apply app_eq_nil in EP; destruct EP as (K & _); destruct (LI i2 K)].
    inversion SS as [|? ? l1 l2 S1 S2]; subst. inversion S2; subst. rewrite app_nil_r in *. destruct i as [v| |g]; cbn [print_item] in EI.
    - injection EI as <-. inversion S1; subst. reflexivity.
    - inversion S1; subst. congruence.
    - injection EI as _ K. destruct (print_alts g); discriminate. }
  destruct a as [sq|sq r].
  - inversion SA; subst. apply (SEQ sq); assumption.
  - cbn [print_alts ok_line] in *. destruct (print_seq sq) as [|p l] eqn:ES; cbn [app] in EW.
    + injection EW as <- EW. inversion SA as [|? ? ? SS|? ? ? SA2]; subst.
      * destruct sq as [|i sq]; [inversion SS; subst; congruence|]. cbn [print_seq] in ES. apply app_eq_nil in ES. destruct ES as (K & _). destruct (LI i K).
      * clear SA. destruct r as [sq2|sq2 r2]; cbn [print_alts] in EW.
        -- inversion SA2 as [? ? SS| |]; subst. destruct sq2 as [|i sq2]; [inversion SS; subst; congruence|]. cbn [print_seq] in EW. apply app_eq_nil in EW. destruct EW as (K & _). destruct (LI i K).
        -- destruct (print_seq sq2); discriminate.
    + injection EW as _ EW. destruct l; discriminate.
Qed.
Theorem C95_plain_word : forall ms g, g_word g <> [] -> Forall (fun b => ordinary (ascii_of_N b)) (g_word g) ->
  (~ In 34%N (g_word g) -> (0 <= ms (g_d g))%Z -> forall fuel, 1 < fuel -> understandable ms fuel g)
  /\ forall p, lexeme_reads g p <-> exists opt, (opt = true <-> optional_type (g_type g)) /\ p = [in_parens opt (string_of_list_ascii (map ascii_of_N (g_word g)))].
Proof.
  intros ms g NE F. set (s := map ascii_of_N (g_word g)). assert (NS : s <> []) by (unfold s; destruct (g_word g); [congruence|discriminate]). assert (FS : Forall ordinary s) by (unfold s; apply Forall_map; exact F).
  pose proof (ordinary_line s NS FS) as EL. set (a := AOne (SCons (IWord (string_of_list_ascii s)) SNil)). assert (EA : as_line s = print_alts a) by (rewrite EL; reflexivity).
  assert (OA : ok_line a). { cbn. split; [|exact I]. assert (K : forall c, is_special c = true -> string_of_list_ascii s <> String c EmptyString). { intros c SC E. destruct s as [|x [|y s']]; try discriminate. cbn in E. injection E as ->. inversion FS as [|? ? OC _]; subst. destruct (ordinary_chars c OC) as (K & _). congruence. }
    split; [destruct s; [congruence|discriminate]|]. split; [apply K; reflexivity|]. split; [apply K; reflexivity|]. split; apply K; reflexivity. }
  split.
  - intros NQ DP fuel LF. split; [exact NQ|]. split; [exact DP|]. exists a. split; [exact EA|]. split; [exact OA|exact LF].
  - intros p. split.
    + intros (a' & x & opt & EA' & OA' & SA & NX & OP & ->). exists opt. split; [exact OP|]. rewrite (word_as_list s a' x EA' OA' SA _ EL NX). reflexivity.
    + intros (opt & OP & ->). exists a, [string_of_list_ascii s], opt. split; [exact EA|]. split; [exact OA|]. split; [|split; [discriminate|split; [exact OP|reflexivity]]]. constructor. change [string_of_list_ascii s] with ([string_of_list_ascii s] ++ []). constructor; constructor.
Qed.
Print Assumptions C95_plain_word.

(** A file without words ends the program. *)
Theorem C95_no_words : forall ms o fuel file ls, file_lines file ls -> words_say 0 ls [] -> load_lexemes ms o fuel file = Exit.
Proof. intros ms o fuel file ls. apply Rlex_Proofs4.no_words. Qed.
Print Assumptions C95_no_words.

(** Findings *)
(** A line of a word with fewer than nine fields leaves a field undefined. *)
Theorem C95_few_words_refuted : forall ms fuel l t ws, headed "LEXEME" l -> spaced l ws -> Forall short ws -> length ws < 9 -> (forall k, nth_error ws 6 = Some k -> word_type k) -> lex_step ms fuel l t = Undef.
Proof.
  intros ms fuel l t ws HD SP SH L WT. unfold lex_step. cbv zeta. rewrite (proj2 (begins_iff "LEXEME" l) HD). assert (FN : firstn 10 ws = ws) by (apply firstn_all2; lia). rewrite (pieces_spaced _ _ SP), scan_ok by (rewrite FN; exact SH). rewrite FN. cbn [rbind].
  destruct (Nat.lt_ge_cases 6 (length ws)) as [L6|L6]; [|rewrite (buf_none 6 ws L6); reflexivity].
  destruct ws as [|w0 [|w1 [|w2 [|w3 [|w4 [|w5 [|w6 ws]]]]]]]; cbn in L6; try lia. cbn [buf nth_error rbind]. rewrite (proj2 (kept_iff w6) (WT w6 eq_refl)). destruct ws as [|w7 [|w8 ws]]; [reflexivity|reflexivity|cbn in L; lia].
Qed.
Print Assumptions C95_few_words_refuted.
(** A word with a quotation mark ends the program; read by turns it is a word like others. *)
Theorem C95_quotation_refuted : forall ms fuel n l t g, line_says n l (EWord g) -> In 34%N (g_word g) -> lex_step ms fuel l t = Exit.
Proof.
  intros ms fuel n l t g LS IQ. inversion LS as [|ty src chan b d w k spkr conf more HD SP SH KE E2| |]; subst. unfold lex_step. cbv zeta. rewrite (proj2 (begins_iff "LEXEME" l) HD), (pieces_spaced _ _ SP), (scan_ok 10 _ SH). cbn [app firstn rbind buf nth_error]. rewrite (proj2 (kept_iff k) KE).
  assert (EQ : existsb (N.eqb 34) w = true) by (apply existsb_exists; exists 34%N; split; [exact IQ|reflexivity]). rewrite EQ. reflexivity.
Qed.
Print Assumptions C95_quotation_refuted.
Definition read_words (o : options) (ls : list string) : res (list (list (string * option string * list (list string)))) :=
  let text s := string_of_list_ascii (map ascii_of_N s) in
  let* (st, set) := load_lexemes cents o 30 (file_of ls) in
  Ok (map (map (fun x => (text (r_id x), option_map text (r_conf x), map (map (src st)) (flat_map (walks 10 (ps_links st) (sg_last (r_seg x))) (sg_first (r_seg x)))))) set).
(** One word without a confidence takes the confidences of all words after it, of all speakers. *)
Theorem C95_confidence_refuted :
  read_words both ["LEXEME f 1 0 1 a lex s 0.5"; "LEXEME f 1 1 1 b lex t <NA>"; "LEXEME f 1 2 1 c lex s 0.75"]%string
    = Ok [[("(s-000)", Some "0.5", [["a"]]); ("(s-001)", None, [["c"]])]; [("(t-000)", None, [["b"]])]]%string.
Proof. vm_compute. reflexivity. Qed.
Print Assumptions C95_confidence_refuted.
(** An empty word is a segment without tokens, and the words before and after it are not linked. *)
Theorem C95_empty_word_refuted :
  read_words both ["LEXEME f 1 0 1 a lex s 0.5"; "LEXEME f 1 1 1 @ lex s 0.5"; "LEXEME f 1 2 1 b lex s 0.5"]%string
    = Ok [[("(s-000)", Some "0.5", [["a"]]); ("(s-001)", Some "0.5", []); ("(s-002)", Some "0.5", [["b"]])]]%string
  /\ (let* (st, _) := load_lexemes cents both 30 (file_of ["LEXEME f 1 0 1 a lex s 0.5"; "LEXEME f 1 1 1 @ lex s 0.5"; "LEXEME f 1 2 1 b lex s 0.5"]%string) in Ok (map (nxt (ps_links st)) [0; 1])) = Ok [[]; []].
Proof. split; vm_compute; reflexivity. Qed.
Print Assumptions C95_empty_word_refuted.

(** ** Examples *)
Definition lex_at (n : nat) (b d w k s c : string) : lexeme := {| g_line := n; g_src := bytes "f"; g_chan := bytes "1"; g_b := bytes b; g_d := bytes d; g_word := bytes w; g_type := bytes k; g_spkr := bytes s; g_conf := bytes c |}.
Definition bwords : list lexeme := [lex_at 2 "0" "3" "well" "lex" "bob" "0.5"; lex_at 4 "2" "2" "uh" "FP" "ann" "<NA>"; lex_at 5 "3" "3" "{_new_york_/_ny_}" "lex" "bob" "0.25"; lex_at 7 "4" "2" "no" "lex" "carol" "0.5"; lex_at 10 "31" "1" "bye" "lex" "bob" "0.75"].
Example bwords_says : file_lines (file_of bfile) (map bytes bfile) /\ words_say 0 (map bytes bfile) bwords.
Proof.
  split; [exact (proj1 bfile_says)|]. assert (NOT : forall p l, begins (bytes p) l = false -> ~ headed p l) by (intros p l; apply begins_not).
  unfold bfile, bwords. cbn [map]. apply wy_none; [left; apply NOT; reflexivity|]. apply wy_none; [left; apply NOT; reflexivity|]. apply wy_word; [says_word (@nil str)|]. apply wy_none; [left; apply NOT; reflexivity|]. apply wy_word; [says_word (@nil str)|]. apply wy_word; [says_word (@nil str)|].
  apply wy_none.
  { right. apply (ls_dropped _ _ (map bytes ["LEXEME"; "f"; "1"; "4"; "1"; "cough"]%string) (bytes "other") (map bytes ["ann"; "<NA>"]%string)); [apply begins_iff; reflexivity|apply spaced_is; reflexivity|reflexivity|apply short_is; vm_compute; reflexivity|]. intros K. apply kept_iff in K. discriminate. }
  apply wy_word; [says_word (@nil str)|]. apply wy_none; [left; apply NOT; reflexivity|]. apply wy_none; [left; apply NOT; reflexivity|]. apply wy_word; [says_word [bytes "x"]|]. apply wy_end.
Qed.
Example bwords_understood : Forall (understandable cents 30) bwords /\ bwords <> [] /\ map fst (of_speaker (bytes "bob") 0 bwords) = [0; 2; 4].
Proof.
  split; [|split; [discriminate|vm_compute; reflexivity]].
  assert (PL : forall g, g_word g <> [] -> forallb (fun b => negb (existsb (Ascii.eqb (ascii_of_N b)) ["{"; "}"; "/"; "@"; "_"; "#"; " "; "009"; "010"; "013"]%char)) (g_word g) = true -> existsb (N.eqb 34) (g_word g) = false -> (0 <= cents (g_d g))%Z -> understandable cents 30 g).
  { intros g NE F NQ DP. apply (C95_plain_word cents g NE); [| |exact DP|lia].
    - apply Forall_forall. intros b Hb K. rewrite forallb_forall in F. specialize (F b Hb). apply negb_true_iff, not_true_iff_false in F. apply F, existsb_exists. exists (ascii_of_N b). split; [exact K|apply Ascii.eqb_refl].
    - intros K. apply not_true_iff_false in NQ. apply NQ, existsb_exists. exists 34%N. split; [exact K|reflexivity]. }
  assert (H : forall w r, ~ says_seq (SCons (IWord w) r) []). { intros w r H. inversion H as [|? ? ? ? H1 H2 H3 H4]; subst. inversion H1; subst. discriminate. }
  constructor; [apply PL; [discriminate|vm_compute; reflexivity|vm_compute; reflexivity|vm_compute; discriminate]|]. constructor; [apply PL; [discriminate|vm_compute; reflexivity|vm_compute; reflexivity|vm_compute; discriminate]|].
  constructor.
  { split; [intros K; vm_compute in K; repeat destruct K as [K|K]; try discriminate; exact K|]. split; [vm_compute; discriminate|]. exists a_york. split; [vm_compute; reflexivity|]. split; [unfold a_york; cbn; unfold plain, solid; cbn; repeat split; try discriminate; auto|cbn; lia]. }
  constructor; [apply PL; [discriminate|vm_compute; reflexivity|vm_compute; reflexivity|vm_compute; discriminate]|]. constructor; [apply PL; [discriminate|vm_compute; reflexivity|vm_compute; reflexivity|vm_compute; discriminate]|]. constructor.
Qed.
Example bwords_read : read_words both bfile = Ok [[("(ann-000)", None, [["(uh)"]])]; [("(bob-000)", Some "0.5", [["well"]]); ("(bob-001)", None, [["new"; "york"]; ["ny"]]); ("(bob-002)", None, [["bye"]])]; [("(carol-000)", None, [["no"]])]]%string.
Proof. vm_compute. reflexivity. Qed.
Example no_words_met : file_lines (file_of ["SPEAKER f 1 0 9 <NA> <NA> s <NA>"]%string) [bytes "SPEAKER f 1 0 9 <NA> <NA> s <NA>"] /\ words_say 0 [bytes "SPEAKER f 1 0 9 <NA> <NA> s <NA>"] [].
Proof. split; [split; [repeat (constructor; [not_there|]); constructor|left; reflexivity]|]. apply wy_none; [left; apply begins_not; reflexivity|apply wy_end]. Qed.
Example quotation_met : read_words both ["LEXEME f 1 0 1 ""a lex s 0.5"]%string = Exit /\ read_turns both ["SPEAKER f 1 0 9 <NA> <NA> s <NA>"; "LEXEME f 1 0 1 ""a lex s 0.5"]%string = Ok [[("(s-000)", [["""a"]])]]%string.
Proof. split; vm_compute; reflexivity. Qed.
Example few_fields_met : read_words both ["LEXEME f 1 0 3 a lex s"]%string = Undef.
Proof. vm_compute. reflexivity. Qed.
