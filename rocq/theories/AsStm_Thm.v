(** C93: asclite's STM files. *)
From Coq Require Import String List NArith ZArith Arith Bool Ascii Lia Sorted Permutation.
From Verif Require Import Base Store_Model Store_Proofs Segm_Model Segm_Proofs2 Links_Model Alt_Model Alt_Spec Alt_Proofs Alt_Proofs2 Alt_Thm AsTrn_Model AsTrn_Spec AsTrn_Proofs AsStm_Model AsStm_Spec AsStm_Proofs1 AsStm_Proofs2 AsStm_Proofs3.
Import ListNotations.
Local Open Scope res_scope.
Local Notation length := List.length.

Lemma speech_map (P : str -> list sseg -> Prop) : forall m0 m, (forall k l, In (k, l) m0 -> at_key k m = l) -> (forall s, In s (map fst m0) -> P s (at_key s m)) -> Forall2 P (map fst m0) (map snd m0).
Proof.
  induction m0 as [|(k, l) m0 IH]; intros m HA HF; [constructor|]. cbn [map fst snd]. constructor; [rewrite <- (HA k l (or_introl eq_refl)); apply HF; left; reflexivity|]. apply (IH m); [intros; apply HA; right; assumption|intros; apply HF; right; assumption].
Qed.
Lemma load_ok ms fuel file ls us cs is : file_lines file ls -> says_file 0 ls us cs -> us <> [] -> Forall2 (understood fuel) us is ->
  exists t st, load ms (fun _ => []) fuel file = Ok (st, map snd (l_map t), cs) /\ inv (length ls) is t /\ StronglySorted before (map fst (l_map t))
    /\ st = {| ps_toks := ps_toks (l_ps t); ps_links := fold_left attach_speech (map snd (l_map t)) (ps_links (l_ps t)) |}
    /\ (forall s, In s (map fst (l_map t)) <-> exists i, In i is /\ i_name i = s)
    /\ forall s, Forall2 (segment_of ms (l_ps t)) (of_name s (in_turn [] is)) (at_key s (l_map t)).
Proof.
  intros FL SF NE FU. unfold load. rewrite (getlines_ok file ls FL). destruct (steps_ok ms fuel 0 ls us cs SF is [] first_state FU first_inv) as (t & E & I & X & C & K & F). rewrite E. cbn [rbind]. cbv zeta.
  exists t. eexists. split; [|split; [exact I|split; [exact (v_sorted _ _ _ I)|split; [reflexivity|split]]]].
  - destruct (l_map t) as [|z m] eqn:EM; [|cbn [map]; rewrite C; reflexivity]. exfalso. destruct us as [|q us]; [congruence|]. inversion FU as [|? i ? is0]; subst. destruct (proj2 (K (i_name i))). right. exists i. split; [left|]; reflexivity.
  - intros s. rewrite K. cbn. split; [intros [[]|H]; exact H|auto].
  - intros s. destruct (F (l_ps t) (ext_refl _) s) as (new & EN & FN). cbn in EN. rewrite EN. exact FN.
Qed.
Lemma segment_same ms st st' z x : (forall w, spells st' (s_first x) (s_last x) w <-> spells st (s_first x) (s_last x) w) -> segment_of ms st z x -> segment_of ms st' z x.
Proof.
  intros H S. destruct z as (pre, i). unfold segment_of in *. destruct S as (A1 & A2 & A3 & A4 & A5 & A6 & A7 & A8 & S). repeat (split; [assumption|]). destruct (i_excl i); [exact S|]. destruct S as (B1 & B2 & B3). split; [exact B1|]. split; [exact B2|]. intros w. rewrite H. apply B3.
Qed.
(** A file of data lines and comments is read as one speech for each speaker, in the order of the
    speakers' names, with the speaker's segments in the order of the file, and the categories in the
    order of the file. *)
Theorem C93_loaded : forall ms fuel file ls us cs is,
  file_lines file ls -> says_file 0 ls us cs -> us <> [] -> Forall2 (understood fuel) us is ->
  exists st set names, load ms (fun _ => []) fuel file = Ok (st, set, cs)
    /\ StronglySorted before names /\ (forall s, In s names <-> exists i, In i is /\ i_name i = s)
    /\ Forall2 (fun s speech => Forall2 (segment_of ms st) (of_name s (in_turn [] is)) speech) names set.
Proof.
  intros ms fuel file ls us cs is FL SF NE FU. destruct (load_ok ms fuel file ls us cs is FL SF NE FU) as (t & st & E & I & SB & -> & K & F). exists {| ps_toks := ps_toks (l_ps t); ps_links := fold_left attach_speech (map snd (l_map t)) (ps_links (l_ps t)) |}, (map snd (l_map t)), (map fst (l_map t)).
  split; [exact E|]. split; [exact SB|]. split; [exact K|]. pose proof (AsStm_Proofs2.at_key_in (l_map t) SB) as AK. apply (speech_map _ (l_map t) (l_map t) AK).
  intros s Hs. destruct (v_ivs _ _ _ I) as (iv & IV). assert (RS : forall speech, In speech (map snd (l_map t)) -> StronglySorted lt (map s_line speech)).
  { intros speech H. apply in_map_iff in H. destruct H as ((k, l) & <- & H). cbn [snd]. rewrite <- (AK k l H). apply (v_rising _ _ _ I). }
  specialize (F s). assert (AL : forall x, In x (at_key s (l_map t)) -> In x (concat (map snd (l_map t)))) by (intros x; apply AsStm_Proofs2.at_key_all).
  assert (FF : forall A (P Q : A -> sseg -> Prop) a b, (forall x y, In y b -> P x y -> Q x y) -> Forall2 P a b -> Forall2 Q a b).
  { clear. intros A P Q a b H F. induction F as [|x y a b H1 F IH]; constructor; [apply H; [left; reflexivity|exact H1]|]. apply IH. intros; apply H; [right|]; assumption. }
  refine (FF _ _ _ _ _ _ F). intros z x Hx. apply segment_same. exact (spells_same (l_ps t) (map snd (l_map t)) (length ls) iv (v_good _ _ _ I) IV RS x (AL x Hx)).
Qed.
Print Assumptions C93_loaded.

(** The ways through a speech, from the first segment with words to the last one, are the ways through
    its segments with words, one after the other. *)
Theorem C93_speech_reads : forall ms fuel file ls us cs is,
  file_lines file ls -> says_file 0 ls us cs -> us <> [] -> Forall2 (understood fuel) us is ->
  exists st set, load ms (fun _ => []) fuel file = Ok (st, set, cs)
    /\ forall speech s r, In speech set -> filter speaks speech = s :: r -> forall w,
       spells st (s_first s) (s_last (last r s)) w
       <-> exists parts, Forall2 (fun s part => spells st (s_first s) (s_last s) part) (s :: r) parts /\ w = concat parts.
Proof.
  intros ms fuel file ls us cs is FL SF NE FU. destruct (load_ok ms fuel file ls us cs is FL SF NE FU) as (t & st & E & I & SB & -> & K & F). eexists. exists (map snd (l_map t)). split; [exact E|].
  intros speech s r H EF w. pose proof (AsStm_Proofs2.at_key_in (l_map t) SB) as AK. destruct (v_ivs _ _ _ I) as (iv & IV). assert (RS : forall speech, In speech (map snd (l_map t)) -> StronglySorted lt (map s_line speech)).
  { intros sp Hp. apply in_map_iff in Hp. destruct Hp as ((k, l) & <- & Hp). cbn [snd]. rewrite <- (AK k l Hp). apply (v_rising _ _ _ I). }
  exact (speech_says (l_ps t) (map snd (l_map t)) (length ls) iv IV RS speech H r [] s EF w).
Qed.
Print Assumptions C93_speech_reads.

Lemma decimal_one d n n' : decimal3 n d -> decimal3 n' d -> n = n'.
Proof. intros (_ & <- & _) (_ & E & _). exact E. Qed.
Lemma in_turn_app : forall is pre x, In x (in_turn pre is) -> exists a b, is = a ++ snd x :: b /\ fst x = pre ++ a.
Proof.
  induction is as [|i is IH]; intros pre x H; [destruct H|]. destruct H as [<-|H]; [exists [], is; cbn; rewrite app_nil_r; auto|]. destruct (IH _ _ H) as (a & b & -> & E). exists (i :: a), b. split; [reflexivity|]. rewrite E, <- app_assoc. reflexivity.
Qed.
Lemma scored_of_app s a b : scored_of s (a ++ b) = scored_of s a + scored_of s b.
Proof. unfold scored_of, scored. rewrite filter_app, filter_app, app_length. reflexivity. Qed.
(** The ids of the scored segments of a speaker are all different. *)
Theorem C93_ids_differ : forall ms fuel file ls us cs is st set,
  file_lines file ls -> says_file 0 ls us cs -> us <> [] -> Forall2 (understood fuel) us is -> (N.of_nat (length is) < 2 ^ 64)%N ->
  load ms (fun _ => []) fuel file = Ok (st, set, cs) ->
  forall speech, In speech set -> NoDup (map s_id (filter (fun x => negb (s_excl x)) speech)).
Proof.
  intros ms fuel file ls us cs is st set FL SF NE FU LT EL speech HS. destruct (C93_loaded ms fuel file ls us cs is FL SF NE FU) as (st' & set' & names & E & _ & _ & F). rewrite EL in E. injection E as <- <-.
  assert (G : exists s, Forall2 (segment_of ms st) (of_name s (in_turn [] is)) speech). { clear - F HS. induction F as [|s sp names set H F IH]; [destruct HS|]. destruct HS as [->|HS]; eauto. }
  destruct G as (s & G). clear - G LT.
  assert (K : forall is pre speech, (N.of_nat (length (pre ++ is)) < 2 ^ 64)%N -> Forall2 (segment_of ms st) (of_name s (in_turn pre is)) speech ->
    NoDup (map s_id (filter (fun x => negb (s_excl x)) speech)) /\ forall x, In x speech -> s_excl x = false -> exists k d, scored_of s pre <= k /\ (N.of_nat k < 2 ^ 64)%N /\ decimal3 (N.of_nat k mod 2 ^ 64) d /\ s_id x = [40%N] ++ s ++ [45%N] ++ d ++ [41%N]).
  { clear. induction is as [|i is IH]; intros pre speech LT F.
    - inversion F; subst. split; [constructor|intros x []].
    - assert (LE : forall l : list item, scored_of s l <= length l). { intros l. unfold scored_of, scored. assert (B : forall (p : item -> bool) l, length (filter p l) <= length l) by (clear; intros p l; induction l as [|z l IH]; cbn; [lia|destruct (p z); cbn; lia]). etransitivity; apply B. }
      assert (LT2 : (N.of_nat (length ((pre ++ [i]) ++ is)) < 2 ^ 64)%N) by (rewrite <- app_assoc; exact LT). cbn [in_turn] in F. unfold of_name in F. cbn [filter snd] in F. fold (of_name s (in_turn (pre ++ [i]) is)) in F. destruct (str_eqb_dec (i_name i) s) as [(EN & EB)|(_ & EB)]; rewrite EB in F.
      2: { destruct (IH _ _ LT2 F) as (A & B). split; [exact A|]. intros x Hx Ex. destruct (B x Hx Ex) as (k & d & H1 & H2). exists k, d. rewrite scored_of_app in H1. split; [lia|exact H2]. }
      inversion F as [|? x0 ? sp H F2]; subst. destruct (IH _ _ LT2 F2) as (A & B). unfold segment_of in H. destruct H as (_ & _ & _ & _ & _ & _ & _ & EX & H). cbn [filter].
      assert (S1 : forall k, scored_of (i_name i) (pre ++ [i]) <= k -> scored_of (i_name i) pre <= k) by (intros k; rewrite scored_of_app; lia).
      destruct (i_excl i) eqn:EI; rewrite EX; cbn [negb].
      + split; [exact A|]. intros x [<-|Hx] Ex; [congruence|]. destruct (B x Hx Ex) as (k & d & H1 & H2). exists k, d. auto.
      + destruct H as (_ & (d & D & ID) & _). assert (S2 : scored_of (i_name i) (pre ++ [i]) = S (scored_of (i_name i) pre)) by (rewrite scored_of_app; unfold scored_of at 2, scored; cbn [filter]; rewrite str_eqb_refl; cbn [filter]; rewrite EI; cbn; lia).
        assert (SB : (N.of_nat (scored_of (i_name i) pre) < 2 ^ 64)%N). { specialize (LE pre). rewrite app_length in LT. cbn [length] in LT. lia. }
        split.
        * cbn [map]. constructor; [|exact A]. intros K. apply in_map_iff in K. destruct K as (x & EE & Hx). apply filter_In in Hx. destruct Hx as (Hx & Ex). destruct (B x Hx) as (k & d' & H1 & H2 & H3 & H4); [destruct (s_excl x); [discriminate|reflexivity]|].
          rewrite H4, ID in EE. apply app_inv_head in EE. apply app_inv_head in EE. apply app_inv_head in EE. apply app_inv_tail in EE. subst d'. pose proof (decimal_one _ _ _ D H3) as Q. rewrite !N.mod_small in Q by assumption. lia.
        * intros x [<-|Hx] Ex; [exists (scored_of (i_name i) pre), d; auto|]. destruct (B x Hx Ex) as (k & d' & H1 & H2). exists k, d'. auto. }
  apply (K is [] speech LT G).
Qed.
Print Assumptions C93_ids_differ.

(** A file without data ends the program. *)
Theorem C93_no_data : forall ms junk fuel file ls n cs, file_lines file ls -> says_file n ls [] cs -> load ms junk fuel file = Exit.
Proof.
  intros ms junk fuel file ls n cs FL SF. unfold load. rewrite (getlines_ok file ls FL).
  assert (K : forall t, l_map t = [] -> exists t', steps ms junk fuel ls t = Ok t' /\ l_map t' = []).
  { clear FL. remember (@nil entry) as us eqn:EU. induction SF as [n|n l ls c us cs CL SF IH|n l ls us cs CL SF IH|n l ls q us cs HC DL LN SF IH]; intros t M; [exists t; auto| | |discriminate].
    all: cbn [steps]; unfold step; replace (is_comment l) with true by (destruct CL as (HC & _); destruct l as [|z l]; [discriminate|cbn in *; rewrite HC; reflexivity]); cbn [rbind]; apply (IH EU); exact M. }
  destruct (K first_state eq_refl) as (t' & -> & E). cbn [rbind]. rewrite E. reflexivity.
Qed.
Print Assumptions C93_no_data.

(** ** What does not hold *)
(** Whatever the line is, with fewer than five words the program reads buffers that were not written. *)
Theorem C93_few_words_refuted : forall ms junk fuel l t ws, hd 0%N l <> 59%N -> spaced l ws -> length ws < 5 -> Forall short ws -> step ms junk fuel l t = Undef.
Proof.
  intros ms junk fuel l t ws HC SP LN SH. unfold step. replace (is_comment l) with false by (destruct l as [|z l]; [reflexivity|cbn in *; symmetry; apply N.eqb_neq, HC]).
  rewrite (pieces_spaced l ws SP), scan_ok; [|rewrite firstn_all2 by lia; exact SH]. rewrite firstn_all2 by lia. cbn [rbind].
  destruct ws as [|a [|b [|c [|d [|e ws]]]]]; cbn [length] in LN; try reflexivity. lia.
Qed.
Print Assumptions C93_few_words_refuted.
(** And so does a word of 255 bytes or more among the first five. *)
Theorem C93_long_word_refuted : forall ms junk fuel l t a w r, hd 0%N l <> 59%N -> spaced l (a ++ w :: r) -> length a < 5 -> Forall short a -> ~ short w -> step ms junk fuel l t = Undef.
Proof.
  intros ms junk fuel l t a w r HC SP LN SH NS. unfold step. replace (is_comment l) with false by (destruct l as [|z l]; [reflexivity|cbn in *; symmetry; apply N.eqb_neq, HC]).
  rewrite (pieces_spaced _ _ SP). replace (scan 6 (a ++ w :: r)) with (@Undef (list str)); [reflexivity|]. symmetry. assert (K : forall n a, length a < n -> Forall short a -> scan n (a ++ w :: r) = Undef).
  { clear - NS. intros n. induction n as [|n IH]; intros a LN SH; [lia|]. destruct a as [|z a]; cbn [app scan].
    - destruct (Nat.ltb_spec (length w) BUFFER_SIZE) as [K|K]; [exact (False_ind _ (NS K))|reflexivity].
    - inversion SH as [|? ? S1 S2]; subst. destruct (Nat.ltb_spec (length z) BUFFER_SIZE) as [K|K]; [|reflexivity]. cbn [length] in LN. rewrite IH; [reflexivity|lia|exact S2]. }
  apply K; [lia|exact SH].
Qed.
Print Assumptions C93_long_word_refuted.

Definition file_of (ls : list string) : str := concat (map (fun l => bytes l ++ [10%N]) ls).
Definition cents (s : str) : Z := Z.of_N (fold_left (fun a c => if ((48 <=? c) && (c <=? 57))%N then a * 10 + (c - 48) else a)%N s 0%N).
(** Id, label, whether excluded, and the words that can come first. *)
Definition view (r : res (pstate * list (list sseg) * list cat)) : res (list (list (string * string * bool * list string)) * list cat) :=
  let text s := string_of_list_ascii (map ascii_of_N s) in
  let* (st, set, cs) := r in Ok (map (map (fun s => (text (s_id s), text (s_label s), s_excl s, map (text_of st) (s_first s)))) set, cs).
Definition read (ls : list string) := view (load cents (fun _ => []) 30 (file_of ls)).
(** The words begin after the first text that looks like the end time, wherever it is: the end time
    itself is then a word. *)
Theorem C93_times_elsewhere_refuted :
  read ["f0 2 spk 0 2 hello"]%string = Ok ([[("(spk-000)", "", false, ["spk"])]%string], [])
  /\ read ["en_4156 A spk 4 5 hello"]%string = Ok ([[("(spk-000)", "", false, ["6"])]%string], [])
  /\ read ["f 1 s 0.5 5 hello"]%string = Ok ([[("(s-000)", "", false, ["5"])]%string], []).
Proof. repeat split; vm_compute; reflexivity. Qed.
Print Assumptions C93_times_elsewhere_refuted.
(** A label that is not closed makes the whole line words; a bracketed word of a line without a label
    is its label, and a word as well. *)
Theorem C93_labels_refuted :
  read ["f 1 s 3 4 <o,f0 hello"]%string = Ok ([[("(s-000)", "<o,f0 hello", false, ["f"])]%string], [])
  /\ read ["f 1 s 3 4 hello <noise>"]%string = Ok ([[("(s-000)", "<noise>", false, ["hello"])]%string], []).
Proof. repeat split; vm_compute; reflexivity. Qed.
Print Assumptions C93_labels_refuted.
(** An excluded segment has the id of the scored one before it, or an id with a number near 2^64. *)
Theorem C93_excluded_ids_refuted :
  read ["f 1 s 3 4 hello"; "f 1 s 4 5 ignore_time_segment_in_scoring"; "f 1 t 4 5 IGNORE_time_segment_in_scoring"]%string
  = Ok ([[("(s-000)", "", false, ["hello"]); ("(s-000)", "", true, [])]; [("(t-18446744073709551615)", "", true, [])]]%string, []).
Proof. vm_compute. reflexivity. Qed.
Print Assumptions C93_excluded_ids_refuted.
Definition category (t i n d : string) : cat := {| k_type := bytes t; k_id := bytes i; k_title := bytes n; k_desc := bytes d |}.
(** The fields of a category are counted in words, so a title of two words is lost, its description is
    lost with it, and any comment whose third word is quoted makes a category; one semicolon is enough. *)
Theorem C93_categories_refuted :
  read [";; CATEGORY ""0"" ""Focus"" ""Conditions"""; ";; CATEGORY ""1"" ""Baseline Broadcast"" ""Read speech"""; "; this ""is"" a comment"; "f 1 s 3 4 hello"]%string
  = Ok ([[("(s-000)", "", false, ["hello"])]%string], [category "CATEGORY" "0" "Focus" "Conditions"; category "CATEGORY" "1" "" "Baseline Broadcast"; category "" "is" "" ""]).
Proof. vm_compute. reflexivity. Qed.
Print Assumptions C93_categories_refuted.
(** Whether a speaker is the gap between segments depends on the memory after its name: the copy
    compared lacks its null byte. *)
Theorem C93_gap_refuted : exists junk1 junk2 spkr, speaker_name junk1 spkr <> speaker_name junk2 spkr
  /\ exists spkr2, ~ ignoring_case spkr2 (bytes "inter_segment_gap") /\ speaker_name (bytes "gap") spkr2 <> spkr2.
Proof.
  exists [], (bytes "x"), (bytes "Inter_Segment_Gap"). split; [vm_compute; discriminate|]. exists (bytes "Inter_Segment_"). split; [|vm_compute; discriminate].
  intros H. apply ignoring_iff in H. vm_compute in H. discriminate H.
Qed.
Print Assumptions C93_gap_refuted.

(** Every text has its words. *)
Theorem C93_words : forall l, exists ws, spaced l ws /\ forall ws', spaced l ws' -> ws' = ws.
Proof.
  intros l. exists (pieces isspace [] l). split; [|intros ws' H; symmetry; apply pieces_spaced, H].
  assert (K : forall l, (forall s, Forall blank s -> spaced (s ++ l) (pieces isspace [] l)) /\ (forall s cur, Forall blank s -> word cur -> spaced (s ++ cur ++ l) (pieces isspace cur l))).
  { clear. induction l as [|c l (IH1 & IH2)]; split.
    - intros s H. rewrite app_nil_r. apply sp_end, H.
    - intros s cur H W. rewrite app_nil_r. cbn [pieces]. destruct cur; [destruct W; congruence|]. apply sp_last; assumption.
    - intros s H. cbn [pieces]. destruct (isspace c) eqn:E.
      + change (c :: l) with ([c] ++ l). rewrite app_assoc. apply IH1, Forall_app. split; [exact H|]. constructor; [apply isspace_iff, E|constructor].
      + apply (IH2 s [c] H). split; [discriminate|]. constructor; [rewrite <- isspace_iff, E; discriminate|constructor].
    - intros s cur H W. cbn [pieces]. destruct (isspace c) eqn:E.
      + destruct cur; [destruct W; congruence|]. apply sp_more; [exact H|exact W|apply isspace_iff, E|]. apply (IH1 [c]). constructor; [apply isspace_iff, E|constructor].
      + change (c :: l) with ([c] ++ l). rewrite (app_assoc cur). apply (IH2 s (cur ++ [c]) H). destruct W as (W1 & W2). split; [intros K; apply app_eq_nil in K; destruct K; congruence|]. apply Forall_app. split; [exact W2|]. constructor; [rewrite <- isspace_iff, E; discriminate|constructor]. }
  exact (proj1 (K l) [] ltac:(constructor)).
Qed.
Print Assumptions C93_words.

(** ** Examples *)
Lemma spaced_is l ws : pieces isspace [] l = ws -> spaced l ws.
Proof. intros <-. destruct (C93_words l) as (ws & H & _). rewrite (pieces_spaced l ws H). exact H. Qed.
Lemma place_is x l k : find_sub x l = Some k -> first_place (firstn k l) x l.
Proof.
  revert k. induction l as [|c l IH]; intros k H; cbn [find_sub] in H; (destruct (starts x _) eqn:S; [injection H as <-; apply starts_iff in S; destruct S as (r & E); split; [exists r; exact E|intros; cbn; lia]|]); [discriminate|].
  destruct (find_sub x l) as [j|]; [|discriminate]. cbn in H. injection H as <-. destruct (IH j eq_refl) as ((r & E) & MIN). split; [exists r; cbn [firstn app]; rewrite E at 1; reflexivity|].
  intros q r' E'. destruct q as [|d q]; [assert (K : starts x (c :: l) = true) by (apply starts_iff; exists r'; exact E'); congruence|]. cbn [app] in E'. injection E' as -> E'. specialize (MIN q r' E'). cbn [firstn length]. lia.
Qed.
Definition afile : list string := [";; CATEGORY ""0"" ""Focus"" ""Conditions"""; ";; comment"; "f 1 ann 0.0 3.5 <o,f0> hello { world / all }";
  "f 1 Bob 4 5 Ignore_Time_Segment_In_Scoring"; "f 1 ann 6 7.25 again"; "f 1 INTER_segment_GAP 8 9"]%string.
Definition entries : list entry := [
  {| n_line := 2; n_src := bytes "f"; n_chan := bytes "1"; n_spkr := bytes "ann"; n_b := bytes "0.0"; n_e := bytes "3.5"; n_label := bytes "<o,f0>"; n_words := bytes " hello { world / all }" |};
  {| n_line := 3; n_src := bytes "f"; n_chan := bytes "1"; n_spkr := bytes "Bob"; n_b := bytes "4"; n_e := bytes "5"; n_label := []; n_words := bytes " Ignore_Time_Segment_In_Scoring" |};
  {| n_line := 4; n_src := bytes "f"; n_chan := bytes "1"; n_spkr := bytes "ann"; n_b := bytes "6"; n_e := bytes "7.25"; n_label := []; n_words := bytes " again" |};
  {| n_line := 5; n_src := bytes "f"; n_chan := bytes "1"; n_spkr := bytes "INTER_segment_GAP"; n_b := bytes "8"; n_e := bytes "9"; n_label := []; n_words := [] |}].
Definition a_hello : alts := AOne (SCons (IWord "hello") (SCons (IGroup (AMore (SCons (IWord "world") SNil) (AOne (SCons (IWord "all") SNil)))) SNil)).
Definition items : list item :=
  map (fun x => {| i_entry := fst (fst x); i_name := bytes (snd (fst x)); i_excl := fst (snd x); i_alts := snd (snd x) |})
    (combine (combine entries ["ann"; "Bob"; "ann"; "inter_segment_gap"]%string) [(false, a_hello); (true, AOne SNil); (false, AOne (SCons (IWord "again") SNil)); (false, AOne SNil)]).
Ltac not_there := vm_compute; intros K; repeat (destruct K as [K|K]; [discriminate|]); exact K.
Lemma short_is ws : forallb (fun w => Nat.ltb (length w) (N.to_nat 255)) ws = true -> Forall short ws.
Proof. intros H. rewrite forallb_forall in H. apply Forall_forall. intros w Hw. apply Nat.ltb_lt, H, Hw. Qed.
Ltac all_short := apply short_is; vm_compute; reflexivity.
Lemma word_is w : w <> [] -> forallb (fun c => negb (isspace c)) w = true -> word w.
Proof. intros NE H. split; [exact NE|]. rewrite forallb_forall in H. apply Forall_forall. intros c Hc. rewrite <- isspace_iff. specialize (H c Hc). destruct (isspace c); discriminate. Qed.
Lemma blank_is w : forallb isspace w = true -> Forall blank w.
Proof. intros H. rewrite forallb_forall in H. apply Forall_forall. intros c Hc. apply isspace_iff, H, Hc. Qed.
Ltac a_word := apply word_is; [discriminate|reflexivity].
Ltac blanks := apply blank_is; reflexivity.
Example afile_says : file_lines (file_of afile) (map bytes afile) /\ says_file 0 (map bytes afile) entries [category "CATEGORY" "0" "Focus" "Conditions"].
Proof.
  split.
  - split; [|left; reflexivity]. repeat (constructor; [not_there|]). constructor.
  - unfold afile, entries, file_of. cbn [map]. apply sf_cat.
    { split; [reflexivity|]. split; [exists (bytes ";;"); apply spaced_is; vm_compute; reflexivity|]. split; [left; reflexivity|]. split; [discriminate|].
      assert (OW : forall s, forallb (fun c => negb (c =? 34)%N && negb (isspace c)) s = true -> one_word s).
      { intros s H. rewrite forallb_forall in H. apply Forall_forall. intros c Hc. specialize (H c Hc). apply andb_true_iff in H. destruct H as (A & B). rewrite <- isspace_iff. apply negb_true_iff, N.eqb_neq in A. split; [exact A|]. destruct (isspace c); discriminate. }
      split; [apply OW; reflexivity|]. split; [apply OW; reflexivity|]. split; [apply OW; reflexivity|]. repeat (constructor; [split; discriminate|]). constructor. }
    apply sf_comment. { split; [reflexivity|not_there]. }
    apply sf_data; [discriminate| |reflexivity|].
    { apply (dl_labelled 2 (bytes "f 1 ann 0.0 3.5 ") (bytes "f") (bytes "1") (bytes "ann") (bytes "0.0") (bytes "3.5") (bytes "o,f0") (bytes "<o,f0>") (map bytes ["hello"; "{"; "world"; "/"; "all"; "}"]%string) (bytes " hello { world / all }"));
        [apply spaced_is; reflexivity|all_short|not_there|not_there|apply isspace_iff; reflexivity|not_there|apply spaced_is; reflexivity]. }
    apply sf_data; [discriminate| |reflexivity|].
    { apply (dl_plain 3 (bytes "f 1 Bob ") (bytes "f") (bytes "1") (bytes "Bob") (bytes "4") (bytes " ") (bytes "5") (bytes " Ignore_Time_Segment_In_Scoring") [bytes "Ignore_Time_Segment_In_Scoring"]);
        [apply spaced_is; reflexivity|apply isspace_iff; reflexivity|a_word|discriminate|blanks|a_word|right; apply isspace_iff; reflexivity|apply spaced_is; reflexivity|all_short|not_there|exact (place_is (bytes "4") (bytes "f 1 Bob 4 5 Ignore_Time_Segment_In_Scoring") 8 eq_refl)|exact (place_is (bytes "5") (bytes " 5 Ignore_Time_Segment_In_Scoring") 1 eq_refl)]. }
    apply sf_data; [discriminate| |reflexivity|].
    { apply (dl_plain 4 (bytes "f 1 ann ") (bytes "f") (bytes "1") (bytes "ann") (bytes "6") (bytes " ") (bytes "7.25") (bytes " again") [bytes "again"]);
        [apply spaced_is; reflexivity|apply isspace_iff; reflexivity|a_word|discriminate|blanks|a_word|right; apply isspace_iff; reflexivity|apply spaced_is; reflexivity|all_short|not_there|exact (place_is (bytes "6") (bytes "f 1 ann 6 7.25 again") 8 eq_refl)|exact (place_is (bytes "7.25") (bytes " 7.25 again") 1 eq_refl)]. }
    apply sf_data; [discriminate| |reflexivity|constructor].
    apply (dl_plain 5 (bytes "f 1 INTER_segment_GAP ") (bytes "f") (bytes "1") (bytes "INTER_segment_GAP") (bytes "8") (bytes " ") (bytes "9") [] []);
      [apply spaced_is; reflexivity|apply isspace_iff; reflexivity|a_word|discriminate|blanks|a_word|left; reflexivity|apply spaced_is; reflexivity|all_short|not_there|exact (place_is (bytes "8") (bytes "f 1 INTER_segment_GAP 8 9") 22 eq_refl)|exact (place_is (bytes "9") (bytes " 9") 1 eq_refl)].
Qed.
Example afile_understood : Forall2 (understood 30) entries items.
Proof.
  assert (NM : forall s, map lower s <> bytes "inter_segment_gap" -> named s s) by (intros s H; right; rewrite ignoring_iff; auto).
  assert (EX : forall w b, ignored w = b -> (b = true <-> excluded w)) by (intros w b <-; apply ignored_iff).
  assert (H : forall w, ~ says_seq (SCons (IWord w) SNil) []). { intros w H. inversion H as [|? ? ? ? H1 H2 H3 H4]; subst. inversion H1; subst. discriminate. }
  assert (UN : forall fuel q n ex a, named (n_spkr q) n -> ignored (n_words q) = ex -> (ex = false -> lex (map ascii_of_N (n_words q)) = print_alts a /\ ok_line a /\ length (print_alts a) < fuel) ->
    understood fuel q {| i_entry := q; i_name := n; i_excl := ex; i_alts := a |}) by (intros; split; [reflexivity|]; split; [assumption|]; split; [apply EX; assumption|assumption]).
  unfold entries, items. cbn [combine map entries fst snd]. constructor; [|constructor; [|constructor; [|constructor; [|constructor]]]]; apply UN; try reflexivity; try discriminate; cbn [n_spkr n_words].
  - apply NM; vm_compute; discriminate.
  - intros _. split; [vm_compute; reflexivity|]. split; [|cbn; lia]. unfold a_hello. cbn. unfold plain, solid. cbn. repeat split; try discriminate; auto.
  - apply NM; vm_compute; discriminate.
  - apply NM; vm_compute; discriminate.
  - intros _. split; [vm_compute; reflexivity|]. split; [|cbn; lia]. cbn. unfold plain, solid. cbn. repeat split; try discriminate; auto.
  - left. split; [apply ignoring_iff; reflexivity|reflexivity].
  - intros _. split; [vm_compute; reflexivity|]. split; [|cbn; lia]. cbn. unfold plain, solid. cbn. repeat split; try discriminate; auto.
Qed.
Example afile_read : read afile = Ok ([[("(Bob-18446744073709551615)", "", true, [])]; [("(ann-000)", "<o,f0>", false, ["hello"]); ("(ann-001)", "", false, ["again"])];
  [("(inter_segment_gap-000)", "", false, [])]]%string, [category "CATEGORY" "0" "Focus" "Conditions"]).
Proof. vm_compute. reflexivity. Qed.
Example no_data_met : read [";; CATEGORY ""0"" ""a"" ""b"""; ";"]%string = Exit.
Proof. vm_compute. reflexivity. Qed.
Example blank_line_met : read ["f 1 s 3 4 hello"; ""]%string = Undef.
Proof. vm_compute. reflexivity. Qed.
