(** C87: the alignment by characters. *)
From Coq Require Import String Ascii List NArith ZArith Arith Bool Lia.
From Verif Require Import Base Net_Model Net_Spec Merge_Model Merge_Spec NetDp_Model NetDp_Spec Text_Model Text_Spec Word_Model Word_Spec Case_Model
  Anet_Model Anet_Spec Anet_Proofs4 Anet_Proofs5 Anet_Proofs6 Anet_Proofs7 Anet_Thm Sep_Model Sep_Spec Sep_Thm Cnet_Model Cnet_Spec Cnet_Proofs1 Cnet_Proofs2 Cnet_Proofs3 Cnet_Proofs4 Cnet_Proofs5.
Import ListNotations.

(** The network of characters says exactly the sequences of words with each word spelled. *)
Theorem C87_network_is_spelled : forall e p no_ascii del_hyphen opt_del junk share free fuel G buf,
  (p = Guarani -> e = GB \/ e = UTF8) -> wf_net G ->
  (forall u x, In x (n_out G u) -> exists w, n_data G x = Some w /\ w_value w <> [] /\ spellable e p del_hyphen (decoded opt_del w)
     /\ (w_opt_del (decoded opt_del w) = true -> n_out G u = [x])) ->
  10 <= length buf -> n_nodes G + 2 * n_arcs G + 1 < fuel -> MAXSTRING + 1 < fuel ->
  exists G' buf', by_chars e p no_ascii del_hyphen opt_del junk share (S free) fuel G buf = Ok (G', buf')
    /\ wf_net G' /\ 10 <= length buf' /\ (n_stop G' = None <-> n_stop G = None)
    /\ forall a, nsays G' a <->
         exists r wss, nsays G (map Some r) /\ Forall2 (fun w ws => spelled e p no_ascii del_hyphen share (decoded opt_del w) ws) r wss
           /\ a = map Some (concat wss).
Proof. intros e p na dh od junk share free fuel G buf GU W HW RB F1 F2. exact (chars_network e p na dh od junk share free fuel GU G buf W HW RB F1 F2). Qed.
Print Assumptions C87_network_is_spelled.

(** A word is spelled in one way. *)
Theorem C87_spelled_in_one_way : forall e p no_ascii del_hyphen share w,
  spellable e p del_hyphen w -> exists ws, spelled e p no_ascii del_hyphen share w ws /\ ws <> [] /\ forall ws', spelled e p no_ascii del_hyphen share w ws' -> ws' = ws.
Proof.
  intros e p na dh share w SP. unfold spelled at 1. destruct (Nat.leb (length (w_value w)) 1) eqn:EL.
  - exists [w]. split; [reflexivity|]. split; [discriminate|]. intros ws' H. unfold spelled in H. rewrite EL in H. exact H.
  - pose proof EL as EL'. apply Nat.leb_gt in EL. destruct SP as [SP|(cs & us & CO & FL & U & NK & _)]; [lia|]. set (ps := map (@concat N) (runs e na (kept dh us))).
    assert (PI : pieces e p na dh (text_of w) ps) by (exists cs, us; auto).
    assert (NP : ps <> []). { unfold ps. destruct (kept dh us) as [|y r]; [congruence|]. destruct (runs_head e na y r) as (g & gs & ->). discriminate. }
    eexists. split; [exists ps; split; [exact PI|reflexivity]|]. split.
    + destruct (list_eq_dec (list_eq_dec N.eq_dec) ps [w_value w]); [discriminate|]. destruct ps; [congruence|discriminate].
    + intros ws' H. apply (spelled_unique e p na dh share w); [exact H|]. unfold spelled. rewrite EL'. exists ps. auto.
Qed.
Print Assumptions C87_spelled_in_one_way.

(** The words of a proper text of ordinary characters, if hyphens are kept or none is all hyphens. *)
Theorem C87_words_can_be_spelled : forall e p del_hyphen n cs r w, Forall (is_char e) cs -> Forall ordinary cs -> proper e n cs -> reads e cs r -> In w r ->
  (del_hyphen = true -> exists b, In b (w_value w) /\ b <> 45%N) -> spellable e p del_hyphen w.
Proof.
  intros e p dh n cs r w HC HO HP HR Hw HH. destruct (proper_words e cs r HR HC HO n HP w Hw) as [LV NB]. exact (words_spellable e p dh cs r w HC HO HR Hw LV NB HH).
Qed.
Print Assumptions C87_words_can_be_spelled.

(** The alignment by characters of two texts costs as much as the cheapest alignment of a reading
    of the one in characters with a reading of the other in characters, and its path shows one of
    that cost. *)
Theorem C87_cheapest_in_characters : forall e p no_ascii del_hyphen opt_del junk share free n1 n2 m1 m2 s1 s2 cs1 cs2 nulls T buf,
  holds m1 s1 -> chars_of e s1 cs1 -> proper e n1 cs1 ->
  holds m2 s2 -> chars_of e s2 cs2 -> proper e n2 cs2 ->
  (p = Guarani -> e = GB \/ e = UTF8) -> 10 <= length buf ->
  (forall r w, reads e cs1 r \/ reads e cs2 r -> In w r -> good_word e w /\ spellable e p del_hyphen w /\ w_opt_del (decoded opt_del w) = false) ->
  exists G1 G2, create n1 e m1 = Ok G1 /\ create n2 e m2 = Ok G2 /\
    forall fuel, n_nodes G1 + 2 * n_arcs G1 + 1 < fuel -> n_nodes G2 + 2 * n_arcs G2 + 1 < fuel -> MAXSTRING + 1 < fuel ->
  exists C1 C2 buf1 buf2,
    by_chars e p no_ascii del_hyphen opt_del junk share (S free) fuel G1 buf = Ok (C1, buf1)
    /\ by_chars e p no_ascii del_hyphen opt_del junk share (S free) fuel G2 buf1 = Ok (C2, buf2) /\
    forall fuel', (Z.of_nat (n_arcs C1) < 65534 /\ Z.of_nat (n_arcs C2) < 65534)%Z ->
      S (n_nodes C1) < fuel' -> S (n_nodes C2) < fuel' ->
    exists A B c path q r h,
      dpalign (wwd_word e) (word_equal e) (word_null e) word_opt word_empty nulls fuel' T C1 C2 = Ok (A, B, (Some c, path))
      /\ reads_chars e p no_ascii del_hyphen share cs1 r /\ reads_chars e p no_ascii del_hyphen share cs2 h /\ pairs q r h /\ total q = c
      /\ (forall r' h' q', reads_chars e p no_ascii del_hyphen share cs1 r' -> reads_chars e p no_ascii del_hyphen share cs2 h' -> pairs q' r' h' -> (c <= total q')%Z)
      /\ path = map shows (filter (fun q => nulls || negb (only_nulls q)) q).
Proof.
  intros e p na dh od junk share free n1 n2 m1 m2 s1 s2 cs1 cs2 nulls T buf M1 K1 P1 M2 K2 P2 GU RB HW.
  destruct (C74_network_says_the_readings e n1 m1 s1 cs1 M1 K1 P1) as (G1 & E1 & W1 & S1).
  destruct (C74_network_says_the_readings e n2 m2 s2 cs2 M2 K2 P2) as (G2 & E2 & W2 & S2).
  exists G1, G2. split; [exact E1|]. split; [exact E2|]. intros fuel F1 F2 FM.
  assert (FINE : forall cs r w, cs = cs1 \/ cs = cs2 -> reads e cs r -> In w r -> fine e w /\ spellable e p dh w /\ decoded od w = w).
  { intros cs r w HC HR Hw. destruct (HW r w) as (GW & SP & OD); [destruct HC; subst cs; auto|exact Hw|]. pose proof (reads_fresh e _ r HR) as K. rewrite Forall_forall in K.
    split; [split; [auto|exact GW]|]. split; [exact SP|]. apply (decode_fresh od w (K w Hw) OD). }
  assert (NET : forall cs G, cs = cs1 \/ cs = cs2 -> wf_net G -> (forall a, nsays G a <-> exists r, reads e cs r /\ a = map Some r) ->
     forall u x, In x (n_out G u) -> exists w, n_data G x = Some w /\ w_value w <> [] /\ spellable e p dh (decoded od w) /\ (w_opt_del (decoded od w) = true -> n_out G u = [x])).
  { intros cs G HC W S u x Hx. destruct (arc_word G _ W S x u Hx) as (w & r & DX & HR & Hw). rewrite DX. destruct (FINE cs r w HC HR Hw) as (((OD & _) & _ & tx0 & TI & NE & _) & SP & DE).
    exists w. split; [reflexivity|]. rewrite DE. split; [|split; [exact SP|congruence]]. destruct TI as [(_ & ->)|(K & _)]; [exact NE|congruence]. }
  destruct (chars_network e p na dh od junk share free fuel GU G1 buf W1 (NET cs1 G1 (or_introl eq_refl) W1 S1) RB F1 FM) as (C1 & buf1 & B1 & V1 & R1 & _ & Y1).
  destruct (chars_network e p na dh od junk share free fuel GU G2 buf1 W2 (NET cs2 G2 (or_intror eq_refl) W2 S2) R1 F2 FM) as (C2 & buf2 & B2 & V2 & _ & _ & Y2).
  exists C1, C2, buf1, buf2. split; [exact B1|]. split; [exact B2|]. intros fuel' Hs L1 L2.
  assert (MI : forall (a b : list word), map Some a = map Some b -> a = b). { induction a as [|x a IH]; intros [|y b] H; try discriminate; [reflexivity|]. cbn in H. injection H as -> H. f_equal. auto. }
  assert (SAY : forall cs G C, cs = cs1 \/ cs = cs2 -> (forall a, nsays G a <-> exists r, reads e cs r /\ a = map Some r) ->
    (forall a, nsays C a <-> exists r wss, nsays G (map Some r) /\ Forall2 (fun w ws => spelled e p na dh share (decoded od w) ws) r wss /\ a = map Some (concat wss)) ->
    forall a, nsays C a <-> exists r, reads_chars e p na dh share cs r /\ a = map Some r).
  { intros cs G C HC S Y a. rewrite Y. split.
    - intros (r & wss & HS & FA & ->). apply S in HS. destruct HS as (r0 & HR & ER). apply MI in ER. subst r0. exists (concat wss). split; [|reflexivity]. exists r, wss. split; [exact HR|]. split; [|reflexivity].
      assert (DE : forall w, In w r -> decoded od w = w) by (intros w Hw; apply (FINE cs r w HC HR Hw)). clear - FA DE. induction FA as [|w ws r wss H FA IH]; constructor; [rewrite (DE w) in H by (left; reflexivity); exact H|apply IH; intros; apply DE; right; assumption].
    - intros (r' & (r & wss & HR & FA & ->) & ->). exists r, wss. split; [apply S; eauto|]. split; [|reflexivity].
      assert (DE : forall w, In w r -> decoded od w = w) by (intros w Hw; apply (FINE cs r w HC HR Hw)). clear - FA DE. induction FA as [|w ws r wss H FA IH]; constructor; [rewrite (DE w) by (left; reflexivity); exact H|apply IH; intros; apply DE; right; assumption]. }
  apply aligned_readings; try assumption; [exact (SAY cs1 G1 C1 (or_introl eq_refl) S1 Y1)|exact (SAY cs2 G2 C2 (or_intror eq_refl) S2 Y2)|].
  assert (FIN : forall cs, cs = cs1 \/ cs = cs2 -> forall r w, reads_chars e p na dh share cs r -> In w r -> fine e w).
  { intros cs HC r w (r0 & wss & HR & FA & ->) Hw. assert (Q : Forall (Forall (fine e)) wss).
    { assert (F : forall w, In w r0 -> fine e w /\ spellable e p dh w) by (intros w0 Hw0; destruct (FINE cs r0 w0 HC HR Hw0) as (? & ? & _); auto). clear - FA F GU.
      induction FA as [|w0 ws r0 wss H FA IH]; constructor; [destruct (F w0 (or_introl eq_refl)) as (Q1 & Q2); exact (spelled_fine e p na dh share GU w0 ws Q1 Q2 H)|apply IH; intros; apply F; right; assumption]. }
    apply in_concat in Hw. destruct Hw as (ws & H1 & H2). rewrite Forall_forall in Q. specialize (Q ws H1). rewrite Forall_forall in Q. auto. }
  intros r w [HR|HR] Hw; [exact (FIN cs1 (or_introl eq_refl) r w HR Hw)|exact (FIN cs2 (or_intror eq_refl) r w HR Hw)].
Qed.
Print Assumptions C87_cheapest_in_characters.

(** Not for every text.  Two optional words as alternatives: the traversal does not come to an end. *)
Definition ctext : string := "{ (a) / (b) }".
Theorem C87_optional_alternatives_refuted : forall junk share free fuel buf, MAXSTRING + 1 < fuel -> 10 <= length buf ->
  exists G, create MAX_TRAV ASCII (tx ctext ++ [0%N]) = Ok G /\ wf_net G
    /\ by_chars ASCII Generic false false true junk share (S free) fuel G buf = NoFuel.
Proof.
  intros junk share free fuel buf FM RB.
  assert (CH : chars_of ASCII (tx ctext) (csof ctext)) by (split; [reflexivity|cbn; chars_tac]).
  assert (HM : holds (tx ctext ++ [0%N]) (tx ctext)) by (split; [intros K; vm_compute in K; repeat (destruct K as [K|K]; [discriminate|]); exact K|exists []; reflexivity]).
  assert (PR : proper ASCII MAX_TRAV (csof ctext)).
  { apply (pr_alt ASCII _ [] (csof " (a) / (b) ") []); [sp|apply group_by; reflexivity|reflexivity|small|discriminate| |apply pr_end; sp].
    intros a Ha. replace (alternatives (csof " (a) / (b) ")) with [csof "(a) "; csof "(b) "] in Ha by (vm_compute; reflexivity). destruct Ha as [<-|[<-|[]]].
    - apply (pr_word ASCII _ [] (csof "(a)") (csof " ") (st "(a)")); [sp|pw|stands|small|nobr|apply pr_end; sp].
    - apply (pr_word ASCII _ [] (csof "(b)") (csof " ") (st "(b)")); [sp|pw|stands|small|nobr|apply pr_end; sp]. }
  destruct (C74_network_says_the_readings ASCII MAX_TRAV _ _ _ HM CH PR) as (G & E & W & _). exists G. split; [exact E|]. split; [exact W|].
  assert (SH : match create MAX_TRAV ASCII (tx ctext ++ [0%N]) with
    | Ok G => (n_nodes G + 2 * n_arcs G + 1 <=? 30) = true /\ exists x y, n_out G (n_start G) = [x; y]
        /\ filter (fun u => match n_out G u with [] => false | _ => true end) (seq 0 (n_nodes G)) = [n_start G]
        /\ n_data G x = Some (st "(a)") /\ n_data G y = Some (st "(b)")
    | _ => False end).
  { vm_compute. split; [reflexivity|]. eexists. eexists. repeat split. }
  rewrite E in SH. destruct SH as (LE & x & y & O & ONLY & DX & DY). apply Nat.leb_le in LE.
  assert (FU : n_nodes G + 2 * n_arcs G + 1 < fuel) by (unfold MAXSTRING in FM; lia).
  destruct (map_words decode_op decode G fuel W) as (G1 & E1 & W1 & (_ & _ & _ & SO & SS & _) & D1); [|exact FU|].
  { intros z (u & Hz). assert (US : u = n_start G).
    { assert (K : In u (filter (fun u => match n_out G u with [] => false | _ => true end) (seq 0 (n_nodes G)))).
      { apply filter_In. split; [apply in_seq; pose proof (wf_out G W z u Hz); lia|]. destruct (n_out G u); [destruct Hz|reflexivity]. }
      rewrite ONLY in K. destruct K as [K|[]]. congruence. }
    subst u. rewrite O in Hz. destruct Hz as [<-|[<-|[]]]; [exists (st "(a)")|exists (st "(b)")]; (split; [assumption|]); vm_compute; reflexivity. }
  unfold by_chars. rewrite E1. cbn [rbind]. unfold traverse_op. destruct fuel as [|f]; [lia|]. cbn [trav_op]. rewrite SS, SO, O.
  destruct (push_all Depth G1 [x; y] [] (fun _ : nat => 0%Z) [n_start G]) as [[fr c] se].
  rewrite (forever junk share free (S f) FM (n_start G) f G1 x y (decode (st "(a)")) (decode (st "(b)")) buf); [reflexivity|exact W1|rewrite SO; exact O| | | | |exact RB].
  - rewrite D1, DX by (exists (n_start G); rewrite O; left; reflexivity). reflexivity.
  - rewrite D1, DY by (exists (n_start G); rewrite O; right; left; reflexivity). reflexivity.
  - split; [reflexivity|]. exists 97%N. split; [lia|]. split; reflexivity.
  - split; [reflexivity|]. exists 98%N. split; [lia|]. split; reflexivity.
Qed.
Print Assumptions C87_optional_alternatives_refuted.

(** A word of hyphens when these are dropped, and an optional word without a text, make the program
    use a network that is not there. *)
Definition spell (e : enc) (no_ascii del_hyphen opt_del : bool) (s : list N) : res (list (option word)) :=
  rbind (create MAX_TRAV e (s ++ [0%N])) (fun G =>
  rbind (by_chars e Generic no_ascii del_hyphen opt_del 0 (fun d n => Z.div d (Z.of_nat n)) MAX_TRAV 60 G (repeat 0%N 10)) (fun r =>
  Ok (map (n_data (fst r)) (filter (fun x => Net_Model.mem x (n_out (fst r) (n_from (fst r) x))) (seq 0 (n_arcs (fst r))))))).
Definition texts (r : res (list (option word))) : res (list (option (list N))) := rbind r (fun l => Ok (map (option_map w_value) l)).
Theorem C87_only_hyphens_refuted : texts (spell ASCII false true false (tx "a-b")) = Ok [Some (tx "a"); Some (tx "b")]
  /\ spell ASCII false true false (tx "a -- b") = Undef.
Proof. split; vm_compute; reflexivity. Qed.
Print Assumptions C87_only_hyphens_refuted.
Theorem C87_empty_optional_refuted : spell ASCII false false true (tx "a ()") = Undef.
Proof. vm_compute; reflexivity. Qed.
Print Assumptions C87_empty_optional_refuted.
(** The character @ of a word becomes the word that counts as no word at all, and a star that ends a
    run of ASCII characters is lost. *)
Theorem C87_at_and_star_refuted : texts (spell ASCII false false false (tx "a@b")) = Ok [Some (tx "a"); Some (tx "@"); Some (tx "b")]
  /\ (exists w, nth_error (match spell ASCII false false false (tx "a@b") with Ok l => l | _ => [] end) 1 = Some (Some w) /\ null_word w)
  /\ texts (spell UTF8 true false false (tx "a*" ++ [0xC3; 0xA9]%N)) = Ok [Some (tx "a"); Some [0xC3; 0xA9]%N].
Proof. split; [vm_compute; reflexivity|]. split; [eexists; split; vm_compute; reflexivity|]. vm_compute. reflexivity. Qed.
Print Assumptions C87_at_and_star_refuted.

(** * The hypotheses can be met *)

Definition csample : string := "ab { cd / e } *-g".
Example csample_chars : chars_of ASCII (tx csample) (csof csample).
Proof. split; [reflexivity|]. cbn. chars_tac. Qed.
Example csample_ordinary : Forall ordinary (csof csample).
Proof. cbn. repeat (constructor; [split; [intros K; cbn in K; lia|split; intros K; cbn in K; intuition discriminate]|]). constructor. Qed.
Example csample_proper : proper ASCII 2 (csof csample).
Proof.
  apply (pr_word ASCII 1 [] (csof "ab") (csof " { cd / e } *-g") (st "ab")); [sp|pw|stands|small|nobr|].
  apply (pr_alt ASCII 1 (csof " ") (csof " cd / e ") (csof " *-g")); [sp|apply group_by; reflexivity|reflexivity|small|discriminate| |].
  - intros a Ha. replace (alternatives (csof " cd / e ")) with [csof "cd "; csof "e "] in Ha by (vm_compute; reflexivity). destruct Ha as [<-|[<-|[]]].
    + apply (pr_word ASCII 0 [] (csof "cd") (csof " ") (st "cd")); [sp|pw|stands|small|nobr|apply pr_end; sp].
    + apply (pr_word ASCII 0 [] (csof "e") (csof " ") (st "e")); [sp|pw|stands|small|nobr|apply pr_end; sp].
  - apply (pr_word ASCII 1 (csof " ") (csof "*-g") [] (st "*-g")); [sp|pw|stands|small|nobr|apply pr_end; sp].
Qed.
Example csample_words : forall r w, reads ASCII (csof csample) r -> In w r -> good_word ASCII w /\ spellable ASCII Generic false w /\ w_opt_del (decoded false w) = false.
Proof.
  intros r w HR Hw. destruct csample_chars as [_ HC]. split; [exact (C75_ordinary_texts ASCII _ r w HC csample_ordinary HR Hw)|]. split.
  - apply (C87_words_can_be_spelled ASCII Generic false 2 (csof csample) r w HC csample_ordinary csample_proper HR Hw). discriminate.
  - pose proof (reads_fresh ASCII _ r HR) as K. rewrite Forall_forall in K. apply (K w Hw).
Qed.
(** The words of its network in characters, in the order of their arcs. *)
Example csample_spelled : texts (spell ASCII false false false (tx csample)) = Ok (map (fun s => Some (tx s)) ["e"; "a"; "b"; "c"; "d"; "*"; "-"; "g"]%string).
Proof. vm_compute. reflexivity. Qed.
Example optional_spelled : texts (spell ASCII false true true (tx "x (a-b)")) = Ok (map (fun s => Some (tx s)) ["x"; "(a)"; "(b)"]%string).
Proof. vm_compute. reflexivity. Qed.
Example utf8_spelled : texts (spell UTF8 true false false (tx "abc" ++ [0xC3; 0xA9]%N ++ tx "d" ++ [0xC3; 0xA9]%N)) = Ok [Some (tx "abc"); Some [0xC3; 0xA9]%N; Some (tx "d"); Some [0xC3; 0xA9]%N].
Proof. vm_compute. reflexivity. Qed.
(** Of an optional word all characters are optional, and its time is shared out. *)
Example timed_spelled : spelled ASCII Generic false false (fun d n => Z.div d (Z.of_nat n))
  {| w_value := tx "(ab)"; w_intern := Some (tx "ab"); w_opt_del := true; w_frag := false; w_t1 := 100; w_t2 := 140; w_dur := 40; w_weight := 0 |}
  [{| w_value := tx "(a)"; w_intern := Some (tx "a"); w_opt_del := true; w_frag := false; w_t1 := 100; w_t2 := 120; w_dur := 20; w_weight := -1000 |};
   {| w_value := tx "(b)"; w_intern := Some (tx "b"); w_opt_del := true; w_frag := false; w_t1 := 120; w_t2 := 140; w_dur := 20; w_weight := -1000 |}].
Proof.
  exists [tx "a"; tx "b"]. split; [|reflexivity]. exists (csof "ab"), (csof "ab"). split; [split; [reflexivity|cbn; chars_tac]|]. split; [|reflexivity].
  repeat (apply units_char; [discriminate|]). constructor.
Qed.
(** "ab c" against "abc" is free by characters; by words it is not. *)
Definition ccosts (ref hyp : string) (chars : bool) : res (option Z) :=
  let net s := rbind (create MAX_TRAV ASCII (tx s ++ [0%N])) (fun G =>
    if chars then rbind (by_chars ASCII Generic false false false 0 (fun d n => Z.div d (Z.of_nat n)) MAX_TRAV 60 G (repeat 0%N 10)) (fun r => Ok (fst r)) else Ok G) in
  rbind (net ref) (fun G1 => rbind (net hyp) (fun G2 =>
  rbind (dpalign (wwd_word ASCII) (word_equal ASCII) (word_null ASCII) word_opt word_empty false 20 (fun _ _ => {| c_min := 0; c_a := None; c_b := None |}) G1 G2)
    (fun r => Ok (fst (snd r))))).
Example costs_by_chars : ccosts "ab { c / d }" "abc" true = Ok (Some 0%Z) /\ ccosts "ab { c / d }" "abc" false = Ok (Some 7000%Z).
Proof. split; vm_compute; reflexivity. Qed.
