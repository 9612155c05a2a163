(** C91: the inference of a word segmentation from a lexicon. *)
From Coq Require Import String Ascii List NArith ZArith Arith Bool Lia Sorted.
From Verif Require Import Base Net_Model Net_Spec Merge_Model Merge_Spec NetDp_Model NetDp_Spec Text_Model Text_Spec Text_Proofs1 Text_Thm Word_Model Word_Spec Case_Model Case_Spec Case_Proofs
  Anet_Model Anet_Spec Anet_Proofs4 Anet_Proofs5 Anet_Proofs6 Anet_Proofs7 Anet_Thm Sep_Model Sep_Spec Sep_Thm Cnet_Model Cnet_Spec Cnet_Proofs1 Cnet_Proofs2 Cnet_Proofs5 Cnet_Thm
  Wseg_Model Wseg_Spec Wseg_Proofs1 Wseg_Proofs2 Wseg_Proofs3 Wseg_Proofs4 Wseg_Proofs5 Wseg_Proofs6.
Import ListNotations.
Local Open Scope res_scope.

(** ** The lexicon *)
(** It is the first field of every line of the file. *)
Theorem C91_lexicon_is_loaded : forall fresh e file, (forall n, length (fresh n) = n) -> ~ In 0%N file ->
  (forall ls l, lines_of file ls -> In l ls -> exists cs, chars_of e l cs /\ Forall high_multibyte cs) ->
  exists ls lex, lines_of file ls /\ load_list fresh e file = Ok lex /\ Forall2 (first_field e) ls lex.
Proof.
  intros fresh e file HF H0 HL. destruct (C42_reading_a_file fresh (repeat 0%N 100) 100 file HF) as (ls & E & L); [rewrite repeat_length; lia|exact H0|].
  destruct (fields_ok e ls) as (lex & EL & F); [apply Forall_forall; intros l Hl; exact (HL ls l L Hl)|]. exists ls, lex. split; [exact L|]. unfold load_list. rewrite E. cbn [rbind]. auto.
Qed.
Print Assumptions C91_lexicon_is_loaded.

(** A word is found exactly if it is there, if the lexicon is in order. *)
Theorem C91_lookup : forall e lex t, sorted_lexicon e lex -> well_formed e t ->
  exists i, in_list e lex t = Ok i /\ match i with Some n => nth_error lex n = Some t | None => ~ In t lex end.
Proof. intros e lex t S W. destruct (in_list_ok e lex t S W) as [(i & E & H)|(E & H)]; [exists (Some i)|exists None]; auto. Qed.
Print Assumptions C91_lookup.

Theorem C91_longest_word : forall e lex, Forall (well_formed e) lex -> exists k, longest e lex 1 = Ok k /\ longest_entry e lex k.
Proof. intros e lex F. destruct (longest_ok e lex F 1) as (k & E & A & B & C). exists k. split; [exact E|]. split; [exact A|]. auto. Qed.
Print Assumptions C91_longest_word.

(** ** The network *)
(** Connected with the length of the longest entry, a network of words says exactly the
    segmentations of what it said, if no word is the null word. *)
Theorem C91_network_is_segmented : forall e lex k G, sorted_lexicon e lex -> longest_entry e lex k -> wf_net G ->
  (forall u x, In x (n_out G u) -> exists w, n_data G x = Some w /\ joinable e w /\ is_null_word w = false) ->
  exists G', fully_connect (append_word e) (word_in_list e lex) k G = Ok G' /\ wf_net G' /\ n_nodes G' = n_nodes G
    /\ forall a, nsays G' a <-> exists r b, nsays G (map Some r) /\ segmented lex r b /\ a = map Some b.
Proof.
  intros e lex k G SL LE W HJ. pose proof LE as (L1 & _). destruct k as [|k]; [lia|].
  destruct (network_segmented e lex k SL G W) as (G' & E & WG & N & _ & S1 & S2); [intros u x Hx; destruct (HJ u x Hx) as (w & D & J & _); eauto|].
  exists G'. split; [exact E|]. split; [exact WG|]. split; [exact N|]. intros a. split; [apply S1|]. intros (r & b & HS & SG & ->). apply (S2 r b HS).
  assert (F : Forall (fun w => joinable e w /\ is_null_word w = false) r).
  { unfold nsays in HS. destruct (n_stop G) as [t|]; [|destruct r; [constructor|discriminate]]. destruct HS as (xs & P & EM). pose proof (path_arcs G xs _ _ P) as PA. clear - PA EM HJ. revert r EM.
    induction PA as [|x xs (u & H) PA IH]; intros r EM; (destruct r as [|w r]; [try constructor; discriminate|]); [discriminate|]. cbn in EM. injection EM as E1 E2. destruct (HJ u x H) as (v & D & Q). constructor; [rewrite D in E1; injection E1 as ->; exact Q|apply IH, E2]. }
  apply (few_pieces_grouped e); [exact LE| | |exact SG]; (eapply Forall_impl; [|exact F]); intros w (? & ?); assumption.
Qed.
Print Assumptions C91_network_is_segmented.

(** With null words nothing more is said, and every segmentation that puts no more words, the null
    words among them, in one than the longest entry has characters. *)
Theorem C91_network_with_nulls : forall e lex k G, sorted_lexicon e lex -> longest_entry e lex k -> wf_net G ->
  (forall u x, In x (n_out G u) -> exists w, n_data G x = Some w /\ joinable e w) ->
  exists G', fully_connect (append_word e) (word_in_list e lex) k G = Ok G' /\ wf_net G'
    /\ (forall a, nsays G' a -> exists r b, nsays G (map Some r) /\ segmented lex r b /\ a = map Some b)
    /\ (forall r b, nsays G (map Some r) -> segmented_to k lex r b -> nsays G' (map Some b)).
Proof.
  intros e lex k G SL (L1 & _) W HJ. destruct k as [|k]; [lia|]. destruct (network_segmented e lex k SL G W HJ) as (G' & E & WG & _ & _ & S1 & S2). eauto.
Qed.
Print Assumptions C91_network_with_nulls.

(** ** The alignments *)
(** The words of the hypothesis are not used: the alignment costs as much as the cheapest of a reading
    of the reference with a segmentation of the characters of a reading of the hypothesis, and
    shows one. *)
Theorem C91_hypothesis_segmentation_is_cheapest : forall e p no_ascii junk share free lex k case_sense opt_del static buf T m1 m2 cs1 cs2 ds1 ds2,
  text_in e m1 cs1 -> text_in e m2 cs2 -> (case_sense = false -> enough static cs1 (cs1 ++ cs2)) ->
  in_case e p case_sense cs1 ds1 -> in_case e p case_sense cs2 ds2 ->
  proper e (S (S free)) ds1 -> proper e (S (S free)) ds2 ->
  (p = Guarani -> e = GB \/ e = UTF8) -> sorted_lexicon e lex -> longest_entry e lex k -> 10 <= length buf ->
  (forall r w, reads e ds1 r \/ reads e ds2 r -> In w r -> good_word e w /\ w_opt_del (decoded opt_del w) = false) ->
  (forall r w, reads e ds2 r -> In w r -> spellable e p false w) ->
  (forall r w, reads_chars e p no_ascii false share ds2 r -> In w r -> w_value w <> [64%N]) ->
  exists R H, create (S (S free)) e (if case_sense then m1 else concat ds1 ++ [0%N]) = Ok R /\ create (S (S free)) e (if case_sense then m2 else concat ds2 ++ [0%N]) = Ok H /\
    forall fuel, n_nodes R + 2 * n_arcs R + 1 < fuel -> n_nodes H + 2 * n_arcs H + 1 < fuel -> MAXSTRING + 1 < fuel ->
  exists H0 H' buf', prepare fuel opt_del false H = Ok H0 /\ segment e p no_ascii junk share (S (S free)) fuel lex k H0 buf = Ok (H', buf') /\
    forall fuel', (Z.of_nat (n_arcs R) < 65534 /\ Z.of_nat (n_arcs H') < 65534)%Z -> S (n_nodes R) < fuel' -> S (n_nodes H') < fuel' ->
  exists A B c path q r h,
    infer1 e p no_ascii junk share (S (S free)) fuel lex k case_sense opt_del false static buf fuel' T m1 m2 = Ok (A, B, (Some c, path), buf')
    /\ reads e ds1 r /\ reads_segmented e p no_ascii share lex ds2 h /\ pairs q r h /\ total q = c
    /\ (forall r' h' q', reads e ds1 r' -> reads_segmented e p no_ascii share lex ds2 h' -> pairs q' r' h' -> (c <= total q')%Z)
    /\ path = map shows (filter (fun q => negb (only_nulls q)) q).
Proof.
  intros e p na junk share free lex k sens od static buf T m1 m2 cs1 cs2 ds1 ds2 T1 T2 EN C1 C2 P1 P2 GU SL LE RB GW SP NA.
  destruct (lowered_ok e p junk (negb sens) static m1 cs1 (cs1 ++ cs2) T1) as (st1 & d1 & m1' & L1 & M1 & U1 & Q1 & N1); [intros K; apply EN; destruct sens; [discriminate|reflexivity]|apply incl_appl, incl_refl|].
  destruct (lowered_ok e p junk (negb sens) st1 m2 cs2 (cs1 ++ cs2) T2) as (st2 & d2 & m2' & L2 & M2 & U2 & Q2 & _); [intros K; apply N1, K|apply incl_appr, incl_refl|].
  assert (d1 = ds1) as -> by (unfold in_case in C1; destruct sens; cbn [negb] in Q1; [congruence|exact (forall2_fun e p true cs1 d1 Q1 ds1 C1)]).
  assert (d2 = ds2) as -> by (unfold in_case in C2; destruct sens; cbn [negb] in Q2; [congruence|exact (forall2_fun e p true cs2 d2 Q2 ds2 C2)]).
  assert (K1 : m1' = if sens then m1 else concat ds1 ++ [0%N]) by (rewrite M1; destruct sens; reflexivity).
  assert (K2 : m2' = if sens then m2 else concat ds2 ++ [0%N]) by (rewrite M2; destruct sens; reflexivity).
  assert (VC : forall ds, Forall (valid e) ds -> chars_of e (concat ds) ds) by (intros ds F; split; [reflexivity|eapply Forall_impl; [|exact F]; intros c (? & _); assumption]).
  destruct (C74_network_says_the_readings e _ m1' _ ds1 (proj1 U1) (VC _ (proj2 U1)) P1) as (R & ER & WR & SR).
  destruct (C74_network_says_the_readings e _ m2' _ ds2 (proj1 U2) (VC _ (proj2 U2)) P2) as (H & EH & WH & SH).
  rewrite <- K1, <- K2. exists R, H. split; [exact ER|]. split; [exact EH|]. intros fuel F1 F2 FM.
  assert (FINE : forall r w, reads e ds1 r \/ reads e ds2 r -> In w r -> fine e w /\ w_opt_del (decoded od w) = false).
  { intros r w HR Hw. destruct (GW r w HR Hw) as (G & O). split; [split; [|exact G]|exact O]. assert (K : Forall fresh r) by (destruct HR as [HR|HR]; exact (reads_fresh e _ r HR)). rewrite Forall_forall in K. auto. }
  destruct (prepare_ok e od fuel R (reads e ds1) (conj WR SR)) as (R0 & PR & (WR0 & SR0) & NR & AR); [intros r w HR; apply FINE; auto|exact F1|].
  destruct (prepare_ok e od fuel H (reads e ds2) (conj WH SH)) as (H0 & PH & TH & NH & AH); [intros r w HR; apply FINE; auto|exact F2|].
  assert (FSP : forall r w, reads e ds2 r -> In w r -> fine e w /\ spellable e p false w) by (intros r w HR Hw; split; [apply (FINE r w); auto|eauto]).
  destruct (segment_ok e fuel p na junk share free lex k GU SL LE H0 (reads e ds2) buf TH FSP) as (H' & buf' & ES & WS & SS); [exact NA|exact RB|rewrite NH, AH; exact F2|exact FM|].
  exists H0, H', buf'. split; [exact PH|]. split; [exact ES|]. intros fuel' HZ G1 G2.
  destruct (aligned_readings e R0 H' (reads e ds1) (reads_segmented e p na share lex ds2) false T fuel' WR0 WS SR0 SS) as (A & B & c & path & q & r & h & ED & X1 & X2 & X3 & X4 & X5 & X6).
  - intros r w [HR|HR] Hw; [apply (FINE r w); auto|exact (in_words_fine e p na share lex GU (reads e ds2) r w FSP HR Hw)].
  - rewrite AR. exact HZ.
  - rewrite NR. exact G1.
  - exact G2.
  - exists A, B, c, path, q, r, h. split; [|auto 8]. unfold infer1. rewrite L1. cbn [rbind]. rewrite ER. cbn [rbind]. rewrite L2. cbn [rbind]. rewrite EH. cbn [rbind]. rewrite PH. cbn [rbind]. rewrite PR. cbn [rbind]. rewrite ES. cbn [rbind]. rewrite ED. reflexivity.
Qed.
Print Assumptions C91_hypothesis_segmentation_is_cheapest.

(** The other way round, the words of the reference are not used.  The case of the texts stays. *)
Theorem C91_reference_segmentation_is_cheapest : forall e p no_ascii junk share free lex k case_sense opt_del static buf T m1 m2 cs1 cs2,
  text_in e m1 cs1 -> text_in e m2 cs2 -> (case_sense = true -> enough static cs1 (cs1 ++ cs2)) ->
  proper e (S (S free)) cs1 -> proper e (S (S free)) cs2 ->
  (p = Guarani -> e = GB \/ e = UTF8) -> sorted_lexicon e lex -> longest_entry e lex k -> 10 <= length buf ->
  (forall r w, reads e cs1 r \/ reads e cs2 r -> In w r -> good_word e w /\ w_opt_del (decoded opt_del w) = false) ->
  (forall r w, reads e cs1 r -> In w r -> spellable e p false w) ->
  (forall r w, reads_chars e p no_ascii false share cs1 r -> In w r -> w_value w <> [64%N]) ->
  exists R H, create (S (S free)) e m1 = Ok R /\ create (S (S free)) e m2 = Ok H /\
    forall fuel, n_nodes R + 2 * n_arcs R + 1 < fuel -> n_nodes H + 2 * n_arcs H + 1 < fuel -> MAXSTRING + 1 < fuel ->
  exists R0 R' buf', prepare fuel opt_del false R = Ok R0 /\ segment e p no_ascii junk share (S (S free)) fuel lex k R0 buf = Ok (R', buf') /\
    forall fuel', (Z.of_nat (n_arcs R') < 65534 /\ Z.of_nat (n_arcs H) < 65534)%Z -> S (n_nodes R') < fuel' -> S (n_nodes H) < fuel' ->
  exists A B c path q r h,
    infer2 e p no_ascii junk share (S (S free)) fuel lex k case_sense opt_del false static buf fuel' T m1 m2 = Ok (A, B, (Some c, path), buf')
    /\ reads_segmented e p no_ascii share lex cs1 r /\ reads e cs2 h /\ pairs q r h /\ total q = c
    /\ (forall r' h' q', reads_segmented e p no_ascii share lex cs1 r' -> reads e cs2 h' -> pairs q' r' h' -> (c <= total q')%Z)
    /\ path = map shows (filter (fun q => negb (only_nulls q)) q).
Proof.
  intros e p na junk share free lex k sens od static buf T m1 m2 cs1 cs2 T1 T2 EN P1 P2 GU SL LE RB GW SP NA.
  destruct (lowered_ok e p junk sens static m1 cs1 (cs1 ++ cs2) T1) as (st1 & d1 & m1' & L1 & _ & _ & _ & N1); [exact EN|apply incl_appl, incl_refl|].
  destruct (lowered_ok e p junk sens st1 m2 cs2 (cs1 ++ cs2) T2) as (st2 & d2 & m2' & L2 & _); [intros K; apply N1, K|apply incl_appr, incl_refl|].
  assert (VC : forall ds, Forall (valid e) ds -> chars_of e (concat ds) ds) by (intros ds F; split; [reflexivity|eapply Forall_impl; [|exact F]; intros c (? & _); assumption]).
  destruct (C74_network_says_the_readings e _ m1 _ cs1 (proj1 T1) (VC _ (proj2 T1)) P1) as (R & ER & WR & SR).
  destruct (C74_network_says_the_readings e _ m2 _ cs2 (proj1 T2) (VC _ (proj2 T2)) P2) as (H & EH & WH & SH).
  exists R, H. split; [exact ER|]. split; [exact EH|]. intros fuel F1 F2 FM.
  assert (FINE : forall r w, reads e cs1 r \/ reads e cs2 r -> In w r -> fine e w /\ w_opt_del (decoded od w) = false).
  { intros r w HR Hw. destruct (GW r w HR Hw) as (G & O). split; [split; [|exact G]|exact O]. assert (K : Forall fresh r) by (destruct HR as [HR|HR]; exact (reads_fresh e _ r HR)). rewrite Forall_forall in K. auto. }
  destruct (prepare_ok e od fuel R (reads e cs1) (conj WR SR)) as (R0 & PR & TR & NR & AR); [intros r w HR; apply FINE; auto|exact F1|].
  destruct (prepare_ok e od fuel H (reads e cs2) (conj WH SH)) as (H0 & PH & (WH0 & SH0) & NH & AH); [intros r w HR; apply FINE; auto|exact F2|].
  assert (FSP : forall r w, reads e cs1 r -> In w r -> fine e w /\ spellable e p false w) by (intros r w HR Hw; split; [apply (FINE r w); auto|eauto]).
  destruct (segment_ok e fuel p na junk share free lex k GU SL LE R0 (reads e cs1) buf TR FSP) as (R' & buf' & ES & WS & SS); [exact NA|exact RB|rewrite NR, AR; exact F1|exact FM|].
  exists R0, R', buf'. split; [exact PR|]. split; [exact ES|]. intros fuel' HZ G1 G2.
  destruct (aligned_readings e R' H0 (reads_segmented e p na share lex cs1) (reads e cs2) false T fuel' WS WH0 SS SH0) as (A & B & c & path & q & r & h & ED & X1 & X2 & X3 & X4 & X5 & X6).
  - intros r w [HR|HR] Hw; [exact (in_words_fine e p na share lex GU (reads e cs1) r w FSP HR Hw)|apply (FINE r w); auto].
  - rewrite AH. exact HZ.
  - exact G1.
  - rewrite NH. exact G2.
  - exists A, B, c, path, q, r, h. split; [|auto 8]. unfold infer2. rewrite L1. cbn [rbind]. rewrite ER. cbn [rbind]. rewrite L2. cbn [rbind]. rewrite EH. cbn [rbind]. rewrite PH. cbn [rbind]. rewrite PR. cbn [rbind]. rewrite ES. cbn [rbind]. rewrite ED. reflexivity.
Qed.
Print Assumptions C91_reference_segmentation_is_cheapest.

(** A text of ordinary characters without the character @ is spelled without the null word. *)
Theorem C91_no_null_words : forall e p no_ascii share cs r w, Forall (is_char e) cs -> Forall ordinary cs -> ~ In 64%N (concat cs) ->
  reads_chars e p no_ascii false share cs r -> In w r -> w_value w <> [64%N].
Proof. intros e p na share cs r w HC HO HB HR Hw E. apply (chars_bare e p na share cs r HC HO HB HR w Hw). rewrite E. left. reflexivity. Qed.
Print Assumptions C91_no_null_words.

(** ** What does not hold *)
Definition T0 : NetDp_Model.table := fun _ _ => {| c_min := 0%Z; c_a := None; c_b := None |}.
Definition even_share (d : Z) (n : nat) : Z := Z.div d (Z.of_nat n).
(** The cost, and the words aligned, of an inference for ASCII texts. *)
Definition inferred (algo2 case_sense : bool) (lex : list string) (ref hyp : string) : res (option Z) :=
  let l := map tx lex in
  let* k := longest ASCII l 1 in
  let f := if algo2 then infer2 else infer1 in
  let* (a, _) := f ASCII Generic false 0%N even_share MAX_TRAV 60 l k case_sense false false None (repeat 0%N 10) 20 T0 (tx ref ++ [0%N]) (tx hyp ++ [0%N]) in
  Ok (fst (snd a)).
(** Without regard to case, a segmentation of the reference is still one in its case: the test is the
    wrong way round and the text in lower case is not used. *)
Theorem C91_case_refuted : inferred true false ["GO"; "HOME"; "go"; "home"]%string "Go HOME" "go home" = Ok (Some 11000%Z)
  /\ inferred false false ["GO"; "HOME"; "go"; "home"]%string "Go HOME" "go home" = Ok (Some 0%Z).
Proof. split; vm_compute; reflexivity. Qed.
Print Assumptions C91_case_refuted.
(** A lexicon out of order is only complained about, and a word of it may not be found. *)
Theorem C91_unsorted_lexicon_refuted : exists file lex t, load_list (fun n => repeat 0%N n) ASCII file = Ok lex /\ In t lex /\ in_list ASCII lex t = Ok None.
Proof.
  exists (concat (map (fun s => tx s ++ [10%N]) ["b"; "c"; "a"]%string)), (map tx ["b"; "c"; "a"]%string), (tx "a").
  split; [vm_compute; reflexivity|]. split; [right; right; left; reflexivity|vm_compute; reflexivity].
Qed.
Print Assumptions C91_unsorted_lexicon_refuted.
(** A null word counts as one of the words put together, so a word of the lexicon is not made across it. *)
Definition connected (lex : list string) (s : string) : res (list (option (list N))) :=
  let l := map tx lex in
  let* k := longest ASCII l 1 in
  let* G := create MAX_TRAV ASCII (tx s ++ [0%N]) in
  let* G := fully_connect (append_word ASCII) (word_in_list ASCII l) k G in
  Ok (map (fun x => option_map w_value (n_data G x)) (filter (fun x => Net_Model.mem x (n_out G (n_from G x))) (seq 0 (n_arcs G)))).
Theorem C91_null_counts_refuted : exists l1 l2 l3,
  connected ["ab"]%string "a b" = Ok l1 /\ In (Some (tx "ab")) l1
  /\ connected ["ab"]%string "a { @ / c } b" = Ok l2 /\ ~ In (Some (tx "ab")) l2
  /\ connected ["ab"; "xyz"]%string "a { @ / c } b" = Ok l3 /\ In (Some (tx "ab")) l3.
Proof.
  eexists. eexists. eexists. split; [vm_compute; reflexivity|]. split; [vm_compute; intuition congruence|]. split; [vm_compute; reflexivity|]. split; [vm_compute; intuition congruence|]. split; [vm_compute; reflexivity|]. vm_compute; intuition congruence.
Qed.
Print Assumptions C91_null_counts_refuted.

(** * The hypotheses can be met *)
Definition slex : list (list N) := map tx ["a"; "ab"; "abc"; "c"]%string.
Lemma tx_wf (s : string) : Forall (fun b => 0 < b < 256)%N (tx s) -> well_formed ASCII (tx s).
Proof.
  intros F. exists (map (fun b => [b]) (tx s)). split; [induction (tx s) as [|b l IH]; [reflexivity|cbn; f_equal; apply IH, (Forall_inv_tail F)]|].
  induction F as [|b l H F IH]; [constructor|]. cbn [map]. constructor; [|exact IH]. exists b, []. split; [reflexivity|]. split; [reflexivity|]. constructor; [exact H|constructor].
Qed.
Example slex_sorted : sorted_lexicon ASCII slex.
Proof.
  split; [repeat (constructor; [apply tx_wf; vm_compute; repeat (constructor; [split; reflexivity|]); constructor|]); constructor|].
  repeat (constructor; [|constructor; eexists; split; [vm_compute; reflexivity|discriminate]]). constructor; [constructor|constructor].
Qed.
Example slex_longest : longest_entry ASCII slex 3.
Proof. destruct (C91_longest_word ASCII slex (proj1 slex_sorted)) as (k & E & L). vm_compute in E. injection E as <-. exact L. Qed.
Example slex_loaded : load_list (fun n => repeat 0%N n) ASCII (tx "a 1" ++ [10%N] ++ tx "  ab" ++ [10%N] ++ tx "abc" ++ [9; 10]%N ++ tx "c") = Ok slex.
Proof. vm_compute. reflexivity. Qed.
(** The text of the examples of C87 can be used for both sides. *)
Example ssample : exists R H, create 2 ASCII (tx csample ++ [0%N]) = Ok R /\ create 2 ASCII (tx csample ++ [0%N]) = Ok H /\
  forall fuel, n_nodes R + 2 * n_arcs R + 1 < fuel -> n_nodes H + 2 * n_arcs H + 1 < fuel -> MAXSTRING + 1 < fuel ->
  exists H0 H' buf', prepare fuel false false H = Ok H0 /\ segment ASCII Generic false 0%N even_share 2 fuel slex 3 H0 (repeat 0%N 10) = Ok (H', buf').
Proof.
  assert (CH := csample_chars). destruct CH as [EC HC].
  assert (PR : proper ASCII 2 (csof csample)) by exact csample_proper.
  assert (TI : text_in ASCII (tx csample ++ [0%N]) (csof csample)).
  { split; [split; [intros K; vm_compute in K; repeat (destruct K as [K|K]; [discriminate|]); exact K|exists []; reflexivity]|]. eapply Forall_impl; [|exact HC]. intros c H. split; [exact H|discriminate]. }
  destruct (C91_hypothesis_segmentation_is_cheapest ASCII Generic false 0%N even_share 0 slex 3 true false None (repeat 0%N 10) T0 _ _ _ _ (csof csample) (csof csample) TI TI) as (R & H & ER & EH & K);
    [discriminate|reflexivity|reflexivity|exact PR|exact PR|discriminate|exact slex_sorted|exact slex_longest| | | | |].
  - rewrite repeat_length. apply Nat.le_refl.
  - intros r w HR Hw. assert (HR' : reads ASCII (csof csample) r) by tauto. destruct (csample_words r w HR' Hw) as (A & _ & B). auto.
  - intros r w HR Hw. apply (csample_words r w HR Hw).
  - intros r w HR Hw. apply (C91_no_null_words ASCII Generic false even_share (csof csample) r w HC csample_ordinary); [|exact HR|exact Hw]. intros Q. vm_compute in Q. repeat (destruct Q as [Q|Q]; [discriminate|]). exact Q.
  - exists R, H. split; [exact ER|]. split; [exact EH|]. intros fuel F1 F2 F3. destruct (K fuel F1 F2 F3) as (H0 & H' & buf' & A & B & _). eauto.
Qed.
(** "a bc" can be made "abc", and "ab" and "c", but not "a" and "bc". *)
Example inferences : inferred false true ["a"; "ab"; "abc"; "c"]%string "abc" "a bc" = Ok (Some 0%Z)
  /\ inferred false true ["a"; "ab"; "abc"; "c"]%string "ab c" "a bc" = Ok (Some 0%Z)
  /\ inferred false true ["a"; "ab"; "abc"; "c"]%string "a bc" "ab c" = Ok (Some 7000%Z)
  /\ inferred true true ["a"; "ab"; "abc"; "c"]%string "a bc" "ab c" = Ok (Some 0%Z)
  /\ inferred false false ["a"; "ab"; "abc"; "c"]%string "ABC" "aBc" = Ok (Some 0%Z).
Proof. repeat split; vm_compute; reflexivity. Qed.
