(** Strings in sclite: code points, comparison, escapes, lines, tokens. *)
From Coq Require Import List Arith ZArith NArith Bool Lia.
From Verif Require Import Base Text_Model Text_Spec Text_Proofs1 Text_Proofs2 Text_Proofs3 Text_Proofs4.
Import ListNotations.
Local Open Scope N_scope.

(** ** C39: code points *)
Theorem C39_decoder : forall c bs m, utf8 c bs -> get_code_point UTF8 (bs ++ m) = Ok c.
Proof. exact decode_utf8. Qed.
Print Assumptions C39_decoder.

Theorem C39_encoder : forall c, c < 0x20000 ->
  exists bs, utf8 c bs /\ code_point_to_text UTF8 c = Ok (bs ++ repeat 0 (10 - length bs)).
Proof. exact encode_utf8. Qed.
Print Assumptions C39_encoder.

Theorem C39_round_trip : forall c, c < 0x20000 ->
  rbind (code_point_to_text UTF8 c) (get_code_point UTF8) = Ok c.
Proof.
  intros c H. destruct (encode_utf8 c H) as (bs & U & ->). cbn [rbind]. apply decode_utf8. exact U.
Qed.
Print Assumptions C39_round_trip.

(** the encoder stops the program at every code point of the planes from 2 on *)
Theorem C39_encoder_accepts_every_code_point_refuted :
  exists c, c < 0x110000 /\ code_point_to_text UTF8 c = Exit.
Proof. exists 0x20000. split; [reflexivity|vm_compute; reflexivity]. Qed.
Print Assumptions C39_encoder_accepts_every_code_point_refuted.

Theorem C39_encoder_refuses_from_plane_2 : forall c, 0x20000 <= c -> code_point_to_text UTF8 c = Exit.
Proof.
  intros c H. unfold code_point_to_text.
  destruct (N.ltb_spec c 0x80); [lia|]. destruct (N.ltb_spec c 0x800); [lia|].
  destruct (N.ltb_spec c 0x10000); [lia|]. destruct (N.ltb_spec c 0x20000); [lia|]. reflexivity.
Qed.
Print Assumptions C39_encoder_refuses_from_plane_2.

(** ** C57: length in characters *)
Theorem C57_length_counts_characters : forall e m s cs, holds m s -> chars_of e s cs ->
  chrlen e m = Ok (length cs).
Proof.
  intros e m s cs (_ & j & ->) (-> & Hc). unfold chrlen. apply chrlen_loop_ok; [exact Hc|].
  rewrite app_length. pose proof (concat_len e cs Hc). cbn. lia.
Qed.
Print Assumptions C57_length_counts_characters.

(** in UTF-8 the characters are the code points *)
Theorem C57_length_counts_code_points : forall m s points bytes, holds m s ->
  Forall2 utf8 points bytes -> ~ In 0 points -> s = concat bytes ->
  chrlen UTF8 m = Ok (length points).
Proof.
  intros m s ps bs Hh H2 H0 Es.
  assert (Hc : Forall (is_char UTF8) bs).
  { clear Es Hh. induction H2; [constructor|]. constructor.
    - eapply utf8_is_char; [eassumption|]. intros ->. apply H0. left. reflexivity.
    - apply IHForall2. intros Hi. apply H0. right. exact Hi. }
  rewrite (C57_length_counts_characters UTF8 m s bs Hh (conj Es Hc)).
  f_equal. clear -H2. induction H2; cbn; congruence.
Qed.
Print Assumptions C57_length_counts_code_points.

(** the text always splits into characters in one way only *)
Theorem C57_characters_are_unique : forall e s cs ds, chars_of e s cs -> chars_of e s ds -> cs = ds.
Proof.
  intros e s cs ds (E1 & H1) (E2 & H2). apply (chars_inj e); [assumption|assumption|congruence].
Qed.
Print Assumptions C57_characters_are_unique.

(** ** C40: comparison *)
Theorem C40_comparison_is_a_total_order : forall e m1 m2 m3 s1 s2 s3,
  holds m1 s1 -> holds m2 s2 -> holds m3 s3 ->
  well_formed e s1 -> well_formed e s2 -> well_formed e s3 ->
  exists z12 z21 z23 z13,
    strcmp e m1 m2 = Ok z12 /\ strcmp e m2 m1 = Ok z21 /\ strcmp e m2 m3 = Ok z23 /\ strcmp e m1 m3 = Ok z13
    /\ (z12 = 0%Z <-> s1 = s2)
    /\ (z12 = -1 \/ z12 = 0 \/ z12 = 1)%Z /\ z21 = (- z12)%Z
    /\ ((z12 <= 0)%Z -> (z23 <= 0)%Z -> (z13 <= 0)%Z).
Proof.
  intros e m1 m2 m3 s1 s2 s3 H1 H2 H3 (c1 & C1) (c2 & C2) (c3 & C3).
  exists (lex ccmp c1 c2), (lex ccmp c2 c1), (lex ccmp c2 c3), (lex ccmp c1 c3).
  destruct good_chars as (G1 & G2 & G3 & G4). unfold strcmp.
  split; [rewrite (strccmp_lex e m1 m2 s1 s2 c1 c2) by (assumption || lia); reflexivity|].
  split; [rewrite (strccmp_lex e m2 m1 s2 s1 c2 c1) by (assumption || lia); reflexivity|].
  split; [rewrite (strccmp_lex e m2 m3 s2 s3 c2 c3) by (assumption || lia); reflexivity|].
  split; [rewrite (strccmp_lex e m1 m3 s1 s3 c1 c3) by (assumption || lia); reflexivity|].
  split; [|split; [apply G1; exact I|split; [apply G2; exact I|]]].
  - rewrite (G3 c1 c2 I I). destruct C1 as (E1 & F1), C2 as (E2 & F2). split.
    + intros ->. congruence.
    + intros E. apply (chars_inj e); [assumption|assumption|congruence].
  - intros A B. exact (G4 c1 c2 c3 I I I A B).
Qed.
Print Assumptions C40_comparison_is_a_total_order.

(** comparing at most [n] characters is comparing the strings cut after [n] characters *)
Theorem C40_limited_comparison : forall e m1 m2 k1 k2 s1 s2 cs1 cs2 n,
  (1 <= n)%nat -> holds m1 s1 -> holds m2 s2 -> chars_of e s1 cs1 -> chars_of e s2 cs2 ->
  holds k1 (concat (firstn n cs1)) -> holds k2 (concat (firstn n cs2)) ->
  strccmp e m1 m2 (Z.of_nat n) = strcmp e k1 k2.
Proof.
  intros e m1 m2 k1 k2 s1 s2 c1 c2 n Hn H1 H2 C1 C2 K1 K2.
  rewrite (strccmp_lex e m1 m2 s1 s2 c1 c2) by (assumption || lia).
  destruct (Z.eqb_spec (Z.of_nat n) (-1)); [lia|]. rewrite Nat2Z.id.
  unfold strcmp. rewrite (strccmp_lex e k1 k2 (concat (firstn n c1)) (concat (firstn n c2)) (firstn n c1) (firstn n c2)); try assumption; [reflexivity| | |lia].
  - split; [reflexivity|]. destruct C1 as (_ & F). rewrite <- (firstn_skipn n c1) in F. apply Forall_app in F. tauto.
  - split; [reflexivity|]. destruct C2 as (_ & F). rewrite <- (firstn_skipn n c2) in F. apply Forall_app in F. tauto.
Qed.
Print Assumptions C40_limited_comparison.

(** a limit of no character still compares the first one *)
Theorem C40_comparing_no_character_refuted :
  exists m1 m2, holds m1 [97] /\ holds m2 [98] /\ strccmp ASCII m1 m2 0 = Ok (-1)%Z.
Proof.
  exists [97; 0], [98; 0]. repeat split; try (exists []; reflexivity); cbn; intuition discriminate.
Qed.
Print Assumptions C40_comparing_no_character_refuted.

(** ** C41: escapes *)
Theorem C41_escape_round_trip : forall m s chr, holds m s -> chr <> 92 ->
  exists out, escaped m chr = Ok out
    /\ forall junk, no_escape (out ++ 0 :: junk) (length out) = Ok s <-> ~ In 92 s.
Proof.
  intros m s chr Hh Hchr. exists (esc chr s). split; [apply escaped_holds; exact Hh|].
  intros junk. rewrite no_escape_app, filter_esc by exact Hchr. rewrite <- filter_id.
  split; [intros E; injection E as E; exact E|intros ->; reflexivity].
Qed.
Print Assumptions C41_escape_round_trip.

(** a whole word, with its two tags, written for the aligned output and read back *)

Theorem C41_word_round_trip : forall e mv v mt1 t1 mt2 t2,
  holds mv v -> holds mt1 t1 -> holds mt2 t2 ->
  plain_field e v -> plain_field e t1 -> plain_field e t2 ->
  (forall r, v <> 123 :: r) -> v <> [] ->
  (exists out, format_word mv (Some mt1) (Some mt2) = Ok out
     /\ forall junk, parse_word e (out ++ 0 :: junk)
        = Ok {| p_text := v; p_tag1 := Some t1; p_tag2 := Some t2 |})
  /\ (exists out, format_word mv None None = Ok out
     /\ forall junk, parse_word e (out ++ 0 :: junk)
        = Ok {| p_text := v; p_tag1 := None; p_tag2 := None |}).
Proof.
  intros e mv v mt1 t1 mt2 t2 Hv H1 H2 (cv & (-> & Cv) & Mv & Bv) (c1 & (-> & C1) & M1 & B1)
    (c2 & (-> & C2) & M2 & B2) Hb Hne.
  assert (Hb' : ~ exists r, concat cv = 123 :: r) by (intros (r & E); exact (Hb r E)).
  unfold format_word. rewrite (escaped_holds _ _ 59 Hv). cbn [rbind tag_or_empty].
  rewrite (escaped_holds _ _ 59 H1), (escaped_holds _ _ 59 H2). cbn [rbind].
  split; eexists; (split; [reflexivity|]); intros junk.
  - apply parse_tagged; try assumption; try (repeat split; assumption). intros ->. apply Hne. reflexivity.
  - apply parse_plain; [repeat split; assumption|exact Hb'].
Qed.
Print Assumptions C41_word_round_trip.

(** a word with a backslash loses it *)
Theorem C41_backslash_refuted : exists m s, holds m s
  /\ exists out, escaped m 59 = Ok out /\ no_escape (out ++ [0]) (length out) <> Ok s.
Proof.
  exists [97; 92; 98; 0], [97; 92; 98]. split; [split; [cbn; intuition discriminate|exists []; reflexivity]|].
  eexists. split; [vm_compute; reflexivity|]. vm_compute. discriminate.
Qed.
Print Assumptions C41_backslash_refuted.

(** reading back a word without text but with tags looks at the byte before the string *)
Theorem C41_empty_word_refuted : exists mt1 mt2, holds mt1 [97] /\ holds mt2 [98]
  /\ exists out, format_word [0] (Some mt1) (Some mt2) = Ok out /\ parse_word UTF8 (out ++ [0]) = Undef.
Proof.
  exists [97; 0], [98; 0]. repeat split; try (exists []; reflexivity); try (cbn; intuition discriminate).
  eexists. split; vm_compute; reflexivity.
Qed.
Print Assumptions C41_empty_word_refuted.

(** ** C42: lines *)
Theorem C42_line_reader : forall fresh arr len file,
  (forall n, length (fresh n) = n) -> (2 <= len <= length arr)%nat -> ~ In 0 file ->
  (file = [] -> ensure_fgets fresh arr len file = Ok None)
  /\ (file <> [] -> exists arr' len' line rest,
       ensure_fgets fresh arr len file = Ok (Some (arr', len', rest))
       /\ first_line file line rest /\ holds arr' line /\ (len <= len' <= length arr')%nat).
Proof.
  intros fresh arr len file Hf Hl H0. split.
  - intros ->. reflexivity.
  - intros Hne. apply ensure_fgets_ok; assumption.
Qed.
Print Assumptions C42_line_reader.

Theorem C42_reading_a_file : forall fresh arr len file,
  (forall n, length (fresh n) = n) -> (2 <= len <= length arr)%nat -> ~ In 0 file ->
  exists ls, read_lines fresh (S (length file)) arr len file = Ok ls /\ lines_of file ls.
Proof. intros fresh arr len file Hf Hl H0. apply read_lines_ok; [assumption|assumption|assumption|lia]. Qed.
Print Assumptions C42_reading_a_file.

(** a line that starts with a null byte makes the reader look before its buffer *)
Theorem C42_null_byte_refuted : exists file, ensure_fgets (fun n => repeat 7 n) (repeat 7 20) 20 file = Undef.
Proof. exists [0; 97; 10]. vm_compute. reflexivity. Qed.
Print Assumptions C42_null_byte_refuted.

(** ** C43: tokens *)
Theorem C43_next_token : forall e cap len m s cs,
  holds m s -> chars_of e s cs -> (len < cap)%nat ->
  exists ws tok rest r, cs = ws ++ tok ++ rest /\ Forall space_char ws
    /\ find_next_token e cap len m = Ok r
    /\ ((tok = [] /\ rest = [] /\ tr_found r = false /\ tr_token r = Some [] /\ holds (tr_rest r) [])
        \/ (is_token tok rest
            /\ if le_lt_dec (length (concat tok)) len
               then (tr_found r = true <-> ~ unclosed tok) /\ tr_token r = Some (concat tok)
                    /\ holds (tr_rest r) (concat rest)
               else tr_found r = false /\ holds (tr_rest r) (skipn len (concat (tok ++ rest))))).
Proof.
  intros e cap len m s cs (H0 & j & ->) (-> & Hc) Hcap.
  destruct (split_text cs) as (ws & tok & rest & E & Hw & Ht).
  exists ws, tok, rest. destruct Ht as [[-> ->]|Ht].
  - rewrite !app_nil_r in E. subst cs. eexists. split; [rewrite !app_nil_r; reflexivity|]. split; [exact Hw|].
    split; [apply token_none; [exact Hc|exact Hw|lia]|]. left. cbn [tr_found tr_token tr_rest].
    repeat split. { intros []. } exists j. reflexivity.
  - eexists. split; [exact E|]. split; [exact Hw|]. split; [apply (token_found e cap len cs ws tok rest j); assumption|].
    right. split; [exact Ht|].
    assert (Hn0 : ~ In 0 (concat (tok ++ rest))).
    { apply (chars_no0 e). rewrite E in Hc. apply Forall_app in Hc. tauto. }
    destruct (le_lt_dec (length (concat tok)) len) as [L|L];
      destruct (Nat.leb_spec (length (concat tok)) len); try lia; cbn [tr_found tr_token tr_rest].
    + split; [|split; [reflexivity|split; [|eauto]]].
      * destruct tok as [|t tok]; [apply token_nonempty in Ht; congruence|].
        destruct (list_eq_dec N.eq_dec t [123]) as [->|Nt]; cbn [negb].
        -- unfold unclosed. destruct (Z.ltb_spec 0 (depth ([123] :: tok))); cbn [negb].
           ++ split; [discriminate|]. intros Hx. exfalso. apply Hx. eauto.
           ++ split; [|reflexivity]. intros _ (Hx & _). lia.
        -- split; [|reflexivity]. intros _ (_ & t' & Et). congruence.
      * intros Hi. apply Hn0. rewrite concat_app. apply in_or_app. right. exact Hi.
    + split; [reflexivity|]. split.
      * intros Hi. apply Hn0. rewrite <- (firstn_skipn len (concat (tok ++ rest))). apply in_or_app. right. exact Hi.
      * exists j. rewrite skipn_app.
        replace (len - length (concat (tok ++ rest)))%nat with 0%nat; [reflexivity|].
        rewrite concat_app, app_length. lia.
Qed.
Print Assumptions C43_next_token.

(** the whole text: its tokens, in order, when all of them fit and every group is closed *)
Theorem C43_all_tokens : forall e cap len m s cs,
  holds m s -> chars_of e s cs -> (len < cap)%nat ->
  exists ts, tokenised cs ts
    /\ (Forall (fun t => (length (concat t) <= len)%nat /\ ~ unclosed t) ts ->
        tokens e cap len m = Ok (map (@concat _) ts)).
Proof.
  intros e cap len m s cs (H0 & j & ->) (-> & Hc) Hcap.
  destruct (tokenised_exists cs) as (ts & Hts). exists ts. split; [exact Hts|].
  intros Hfit. unfold tokens. apply tokens_loop_ok; try assumption.
  rewrite app_length. pose proof (concat_len e cs Hc). cbn. lia.
Qed.
Print Assumptions C43_all_tokens.

(** the alternatives of a group *)
Theorem C43_next_alternative : forall e cap len m s cs,
  holds m s -> chars_of e s cs -> (len < cap)%nat ->
  exists ws piece rest r, cs = ws ++ piece ++ rest /\ Forall (fun c => space_char c \/ c = [47]) ws
    /\ find_next_alternation e cap len m = Ok r
    /\ ((piece = [] /\ rest = [] /\ tr_found r = false /\ tr_token r = Some [] /\ holds (tr_rest r) [])
        \/ (is_piece piece rest
            /\ if le_lt_dec (length (concat piece)) len
               then tr_found r = true /\ tr_token r = Some (concat piece) /\ holds (tr_rest r) (concat rest)
               else tr_found r = false /\ holds (tr_rest r) (skipn len (concat (piece ++ rest))))).
Proof.
  intros e cap len m s cs (H0 & j & ->) (-> & Hc) Hcap.
  destruct (split_while (skippable true) cs) as (ws & r0 & E & Hw & Hr).
  assert (Hws : Forall skip_piece ws).
  { eapply Forall_impl; [|exact Hw]. intros c. apply skippable_ok. }
  destruct r0 as [|c r0].
  - exists ws, [], []. eexists. rewrite app_nil_r in E. subst cs. split; [rewrite !app_nil_r; reflexivity|].
    split; [exact Hws|]. split; [apply piece_none; [exact Hc|exact Hws|lia]|]. left.
    cbn [tr_found tr_token tr_rest]. repeat split. { intros []. } exists j. reflexivity.
  - destruct (split_piece r0 c) as (w & rest & -> & Hp). exists ws, (c :: w), rest.
    assert (Hn0 : ~ In 0 (concat ((c :: w) ++ rest))).
    { apply (chars_no0 e). rewrite E in Hc. apply Forall_app in Hc. tauto. }
    eexists. split; [exact E|]. split; [exact Hws|].
    split.
    { rewrite E. apply (piece_found e cap len ws (c :: w) rest j).
      - rewrite E in Hc. exact Hc.
      - exact Hws.
      - exact Hp.
      - intros c' p Ec Hs. injection Ec as <- _. apply skippable_ok in Hs. congruence.
      - exact Hcap. }
    right. split; [exact Hp|].
    destruct (le_lt_dec (length (concat (c :: w))) len) as [L|L];
      destruct (Nat.leb_spec (length (concat (c :: w))) len); try lia; cbn [tr_found tr_token tr_rest].
    + split; [reflexivity|]. split; [reflexivity|]. split; [|eauto].
      intros Hi. apply Hn0. rewrite concat_app. apply in_or_app. right. exact Hi.
    + split; [reflexivity|]. split.
      * intros Hi. apply Hn0. rewrite <- (firstn_skipn len (concat ((c :: w) ++ rest))). apply in_or_app. right. exact Hi.
      * exists j. rewrite skipn_app.
        replace (len - length (concat ((c :: w) ++ rest)))%nat with 0%nat; [reflexivity|].
        rewrite concat_app, app_length. lia.
Qed.
Print Assumptions C43_next_alternative.

(** with a buffer of exactly the stated length the terminator is written outside it *)
Theorem C43_buffer_of_the_stated_length_refuted : exists m s, holds m s /\ well_formed ASCII s
  /\ find_next_token ASCII (length s) (length s) m = Undef.
Proof.
  exists [97; 98; 99; 0], [97; 98; 99]. split; [split; [cbn; intuition discriminate|exists []; reflexivity]|].
  split; [|vm_compute; reflexivity]. exists [[97]; [98]; [99]]. split; [reflexivity|].
  repeat (constructor; [eexists; eexists; split; [reflexivity|split; [reflexivity|repeat constructor]]|]). constructor.
Qed.
Print Assumptions C43_buffer_of_the_stated_length_refuted.

(** a token that does not fit loses its beginning, a group that is not closed is lost *)
Theorem C43_text_is_dropped_refuted :
  tokens ASCII 5 4 [97; 98; 99; 100; 101; 0] = Ok [[101]]
  /\ tokens ASCII 50 49 [97; 32; 123; 32; 98; 32; 99; 0] = Ok [[97]].
Proof. split; vm_compute; reflexivity. Qed.
Print Assumptions C43_text_is_dropped_refuted.

(** ** The hypotheses can be met *)
Example e_acute : utf8 0xE9 [0xC3; 0xA9].
Proof. apply (utf8_2 3 41); reflexivity || (intro; discriminate). Qed.
Example e_acute_decoded : get_code_point UTF8 ([0xC3; 0xA9] ++ [0]) = Ok 0xE9.
Proof. vm_compute. reflexivity. Qed.
Example plane1_round_trip : rbind (code_point_to_text UTF8 0x1F600) (get_code_point UTF8) = Ok 0x1F600.
Proof. vm_compute. reflexivity. Qed.
Definition text_example : list byte := [97; 32; 0xC3; 0xA9; 98; 32; 123; 32; 99; 32; 47; 32; 100; 32; 125; 32].
Example text_example_wf : well_formed UTF8 text_example.
Proof.
  exists [[97]; [32]; [0xC3; 0xA9]; [98]; [32]; [123]; [32]; [99]; [32]; [47]; [32]; [100]; [32]; [125]; [32]].
  split; [reflexivity|].
  repeat (constructor; [eexists; eexists; split; [reflexivity|split; [cbn [char_size length]; lia|repeat constructor]]|]).
  constructor.
Qed.
Example text_example_tokens : tokens UTF8 30 29 (text_example ++ [0; 1; 2]) =
  Ok [[97]; [0xC3; 0xA9; 98]; [123; 32; 99; 32; 47; 32; 100; 32; 125]].
Proof. vm_compute. reflexivity. Qed.
Example text_example_order : strcmp UTF8 (text_example ++ [0]) [97; 0] = Ok 1%Z
  /\ strcmp UTF8 [97; 0] (text_example ++ [0]) = Ok (-1)%Z /\ chrlen UTF8 (text_example ++ [0]) = Ok 15%nat.
Proof. repeat split; vm_compute; reflexivity. Qed.
Example alternatives_example :
  find_next_alternation UTF8 9 8 [32; 99; 32; 47; 32; 100; 32; 125; 0] =
  Ok {| tr_found := true; tr_token := Some [99; 32]; tr_rest := [47; 32; 100; 32; 125; 0] |}.
Proof. vm_compute. reflexivity. Qed.
Example word_example : exists out,
  format_word [97; 59; 98; 0] (Some [59; 0]) (Some [0]) = Ok out
  /\ parse_word UTF8 (out ++ [0]) = Ok {| p_text := [97; 59; 98]; p_tag1 := Some [59]; p_tag2 := Some [] |}.
Proof. eexists. split; vm_compute; reflexivity. Qed.
Example word_example_plain : plain_field UTF8 [97; 59; 98].
Proof.
  exists [[97]; [59]; [98]]. split; [split; [reflexivity|]|split; [|cbn; intuition discriminate]].
  - repeat (constructor; [eexists; eexists; split; [reflexivity|split; [cbn [char_size length]; lia|repeat constructor]]|]).
    constructor.
  - repeat (constructor; [intros H; cbn in H; lia|]). constructor.
Qed.
Example lines_example : read_lines (fun n => repeat 7 n) 9 (repeat 1 2) 2 [97; 98; 99; 100; 10; 10; 101] =
  Ok [[97; 98; 99; 100; 10]; [10]; [101]].
Proof. vm_compute. reflexivity. Qed.
