(** C74 the network of a transcript with alternatives, C75 the alignment of two of them. *)
From Coq Require Import String Ascii List NArith ZArith Arith Bool Lia.
From Verif Require Import Base Net_Model Net_Spec Merge_Model NetDp_Model NetDp_Spec NetDp_Proofs5 Text_Model Text_Spec Word_Model Word_Spec Word_Thm
  Anet_Model Anet_Spec Anet_Proofs4 Anet_Proofs5 Anet_Proofs6 Anet_Proofs7.
Import ListNotations.

(** * C74 *)

(** The network of a proper text says exactly its readings, and it is well formed. *)
Theorem C74_network_says_the_readings : forall e n m s cs, holds m s -> chars_of e s cs -> proper e n cs ->
  exists G, create n e m = Ok G /\ wf_net G
    /\ (forall a, nsays G a <-> exists r, reads e cs r /\ a = map Some r).
Proof.
  intros e n m s cs (_ & j & ->) (-> & HC) HP. destruct (create_ok e n cs HP HC j) as (G & E & W & _ & S). exists G. auto.
Qed.
Print Assumptions C74_network_says_the_readings.

(** The network is empty exactly for a blank text. *)
Theorem C74_empty_for_blank_texts : forall e n m s cs G, holds m s -> chars_of e s cs -> proper e n cs ->
  create n e m = Ok G -> (n_stop G = None <-> Forall space_char cs).
Proof.
  intros e n m s cs G (_ & j & ->) (-> & HC) HP E. destruct (create_ok e n cs HP HC j) as (G' & E' & _ & S & _).
  rewrite E in E'. injection E' as ->. exact S.
Qed.
Print Assumptions C74_empty_for_blank_texts.

(** A word of ordinary characters stands for itself without one star at its end. *)
Theorem C74_ordinary_words : forall e tok rest, plain_word tok rest -> Forall (is_char e) tok -> Forall ordinary tok ->
  exists w, stands_for e tok w /\ unstarred (concat tok) (w_value w) /\ good_word e w
    /\ forall w', stands_for e tok w' -> w' = w.
Proof.
  intros e tok rest H1 H2 H3. destruct (plain_stands e tok rest H1 H2 H3) as (w & S & U & G).
  exists w. repeat split; auto; try apply G. intros w' S'. exact (parse_det e tok w' w S' S).
Qed.
Print Assumptions C74_ordinary_words.

Definition tx (s : string) : list N := map (fun c => N.of_nat (nat_of_ascii c)) (list_ascii_of_string s).
Definition csof (s : string) : chars := map (fun b => [b]) (tx s).
Fixpoint nest (n : nat) (s : string) : string := match n with 0 => s | S k => ("{" ++ nest k s ++ "}")%string end.

(** Not so for every text: a group without an alternative, and a word with an opening brace in
    it, make the program use a network that is not there. *)
Theorem C74_empty_group_refuted : create MAX_TRAV ASCII (tx "a { } b" ++ [0%N]) = Undef.
Proof. vm_compute. reflexivity. Qed.
Print Assumptions C74_empty_group_refuted.
Theorem C74_brace_in_word_refuted : create MAX_TRAV ASCII (tx "ab{c}" ++ [0%N]) = Undef.
Proof. vm_compute. reflexivity. Qed.
Print Assumptions C74_brace_in_word_refuted.
(** A group that is not closed is dropped without a message. *)
Theorem C74_unclosed_group_refuted : exists G, create MAX_TRAV ASCII (tx "a { b / c" ++ [0%N]) = Ok G
  /\ map (fun x => option_map w_value (n_data G x)) (seq 0 (n_arcs G)) = [Some (tx "a")].
Proof. eexists. split; vm_compute; reflexivity. Qed.
Print Assumptions C74_unclosed_group_refuted.
(** The 31 traversals the program allows at a time are not enough for 31 groups in each other. *)
Theorem C74_deep_groups_refuted : (exists G, create MAX_TRAV ASCII (tx (nest 30 "a") ++ [0%N]) = Ok G)
  /\ create MAX_TRAV ASCII (tx (nest 31 "a") ++ [0%N]) = Exit.
Proof. split; [eexists|]; vm_compute; reflexivity. Qed.
Print Assumptions C74_deep_groups_refuted.

(** * C75 *)

(** The alignment of the networks of two texts costs as much as the cheapest alignment of a
    reading of the one with a reading of the other, and its path shows one of that cost. *)
Theorem C75_cheapest_readings : forall e n1 n2 m1 m2 s1 s2 cs1 cs2 nulls T,
  holds m1 s1 -> chars_of e s1 cs1 -> proper e n1 cs1 ->
  holds m2 s2 -> chars_of e s2 cs2 -> proper e n2 cs2 ->
  (forall r w, reads e cs1 r \/ reads e cs2 r -> In w r -> good_word e w) ->
  exists G1 G2, create n1 e m1 = Ok G1 /\ create n2 e m2 = Ok G2 /\
    forall fuel, (Z.of_nat (n_arcs G1) < 65534 /\ Z.of_nat (n_arcs G2) < 65534)%Z ->
      S (n_nodes G1) < fuel -> S (n_nodes G2) < fuel ->
    exists A B c path p r h,
      dpalign (wwd_word e) (word_equal e) (word_null e) word_opt word_empty nulls fuel T G1 G2 = Ok (A, B, (Some c, path))
      /\ reads e cs1 r /\ reads e cs2 h /\ pairs p r h /\ total p = c
      /\ (forall r' h' p', reads e cs1 r' -> reads e cs2 h' -> pairs p' r' h' -> (c <= total p')%Z)
      /\ path = map shows (filter (fun q => nulls || negb (only_nulls q)) p).
Proof.
  intros e n1 n2 m1 m2 s1 s2 cs1 cs2 nulls T M1 C1 P1 M2 C2 P2 GW.
  destruct (C74_network_says_the_readings e n1 m1 s1 cs1 M1 C1 P1) as (G1 & E1 & W1 & S1).
  destruct (C74_network_says_the_readings e n2 m2 s2 cs2 M2 C2 P2) as (G2 & E2 & W2 & S2).
  exists G1, G2. split; [exact E1|]. split; [exact E2|]. intros fuel Hs F1 F2.
  apply aligned_readings; try assumption. intros r w [Hr|Hr] Hw; (split; [pose proof (reads_fresh e _ r Hr) as K; rewrite Forall_forall in K; auto|]); eapply GW; eauto.
Qed.
Print Assumptions C75_cheapest_readings.

(** For texts of ordinary characters the words are all good. *)
Theorem C75_ordinary_texts : forall e cs r w, Forall (is_char e) cs -> Forall ordinary cs -> reads e cs r -> In w r -> good_word e w.
Proof. intros e cs r w HC HO HR Hw. pose proof (reads_good e cs r HR HC HO) as K. rewrite Forall_forall in K. auto. Qed.
Print Assumptions C75_ordinary_texts.

(** * The hypotheses can be met *)

Ltac chars_tac := repeat (constructor; [eexists; eexists; split; [reflexivity|split; [cbn [char_size List.length]; lia|repeat constructor]]|]); constructor.
Definition sample : string := "a { b c / { d / e } } f*".
Example sample_chars : chars_of ASCII (tx sample) (csof sample).
Proof. split; [reflexivity|]. cbn. chars_tac. Qed.
Example sample_ordinary : Forall ordinary (csof sample).
Proof. cbn. repeat (constructor; [split; [intros K; cbn in K; lia|split; intros K; cbn in K; intuition discriminate]|]). constructor. Qed.

Fixpoint open_inside (d : Z) (cs : chars) : bool :=
  match cs with
  | [] => true
  | c :: r => match r with [] => true | _ => (0 <? d + depth [c])%Z && open_inside (d + depth [c]) r end
  end.
Lemma open_inside_ok : forall cs d, open_inside d cs = true -> forall p q, cs = p ++ q -> p <> [] -> q <> [] -> (0 < d + depth p)%Z.
Proof.
  induction cs as [|c cs IH]; intros d H p q E NP NQ; [destruct p; [congruence|discriminate]|].
  destruct p as [|c' p]; [congruence|]. injection E as <- E. destruct cs as [|c2 cs]; [destruct p; [cbn in E; congruence|discriminate]|].
  cbn [open_inside] in H. apply andb_prop in H. destruct H as [H1 H2]. apply Z.ltb_lt in H1.
  destruct p as [|c3 p]; [exact H1|]. specialize (IH _ H2 (c3 :: p) q E ltac:(discriminate) NQ). cbn [depth] in *. lia.
Qed.
Lemma group_by inner rest : open_inside 0 (braces inner) = true -> depth (braces inner) = 0%Z -> group (braces inner) rest.
Proof.
  intros H D. split; [eexists; reflexivity|]. split; [|left; exact D].
  intros p q E NP NQ. pose proof (open_inside_ok _ _ H p q E NP NQ). lia.
Qed.
Ltac sp := cbn; repeat (apply Forall_cons; [eexists; split; [reflexivity|unfold space; lia]|]); apply Forall_nil.
Ltac nosp := cbn; repeat (apply Forall_cons; [intros (? & K & ?); unfold space in *; injection K as <-; lia|]); apply Forall_nil.
Ltac pw := split; [discriminate|split; [discriminate|split; [nosp|first [left; reflexivity|right; eexists; eexists; split; [reflexivity|eexists; split; [reflexivity|left; reflexivity]]]]]].
Ltac small := apply Nat.ltb_lt; vm_compute; reflexivity.
Ltac nobr := vm_compute; intuition discriminate.
Definition st (s : string) : word := Anet_Model.word_of {| p_text := tx s; p_tag1 := None; p_tag2 := None |}.
Ltac stands := eexists; split; [vm_compute; reflexivity|reflexivity].
Example sample_proper : proper ASCII 3 (csof sample).
Proof.
  apply (pr_word ASCII 2 [] (csof "a") (csof " { b c / { d / e } } f*") (st "a")); [sp|pw|stands|small|nobr|].
  apply (pr_alt ASCII 2 (csof " ") (csof " b c / { d / e } ") (csof " f*")); [sp|apply group_by; reflexivity|reflexivity|small|discriminate| |].
  - intros a Ha. replace (alternatives (csof " b c / { d / e } ")) with [csof "b c "; csof "{ d / e } "] in Ha by (vm_compute; reflexivity). destruct Ha as [<-|[<-|[]]].
    + apply (pr_word ASCII 1 [] (csof "b") (csof " c ") (st "b")); [sp|pw|stands|small|nobr|].
      apply (pr_word ASCII 1 (csof " ") (csof "c") (csof " ") (st "c")); [sp|pw|stands|small|nobr|].
      apply pr_end. sp.
    + apply (pr_alt ASCII 1 [] (csof " d / e ") (csof " ")); [sp|apply group_by; reflexivity|reflexivity|small|discriminate| |apply pr_end; sp].
      intros a Ha. replace (alternatives (csof " d / e ")) with [csof "d "; csof "e "] in Ha by (vm_compute; reflexivity). destruct Ha as [<-|[<-|[]]].
      * apply (pr_word ASCII 0 [] (csof "d") (csof " ") (st "d")); [sp|pw|stands|small|nobr|apply pr_end; sp].
      * apply (pr_word ASCII 0 [] (csof "e") (csof " ") (st "e")); [sp|pw|stands|small|nobr|apply pr_end; sp].
  - apply (pr_word ASCII 2 (csof " ") (csof "f*") [] (st "f*")); [sp|pw|stands|small|nobr|apply pr_end; sp].
Qed.
Example sample_reading : reads ASCII (csof sample) [st "a"; st "e"; st "f"].
Proof.
  apply (rd_word ASCII [] (csof "a") (csof " { b c / { d / e } } f*") (st "a") [st "e"; st "f"]); [sp|pw|stands|].
  apply (rd_alt ASCII (csof " ") (csof " b c / { d / e } ") (csof " f*") (csof "{ d / e } ") [st "e"] [st "f"]); [sp|apply group_by; reflexivity|reflexivity|right; left; reflexivity| |].
  - apply (rd_alt ASCII [] (csof " d / e ") (csof " ") (csof "e ") [st "e"] []); [sp|apply group_by; reflexivity|reflexivity|right; left; reflexivity| |apply rd_end; sp].
    apply (rd_word ASCII [] (csof "e") (csof " ") (st "e") []); [sp|pw|stands|apply rd_end; sp].
  - apply (rd_word ASCII (csof " ") (csof "f*") [] (st "f") []); [sp|pw|stands|apply rd_end; sp].
Qed.
(** "a e f" against the sample costs nothing, "a b f" one deletion. *)
Definition costs (hyp : string) : res (option Z) :=
  rbind (create MAX_TRAV ASCII (tx sample ++ [0%N])) (fun G1 =>
  rbind (create MAX_TRAV ASCII (tx hyp ++ [0%N])) (fun G2 =>
  rbind (dpalign (wwd_word ASCII) (word_equal ASCII) (word_null ASCII) word_opt word_empty false 20 (fun _ _ => {| c_min := 0; c_a := None; c_b := None |}) G1 G2)
    (fun r => Ok (fst (snd r))))).
Example sample_costs : costs "a e f" = Ok (Some 0%Z) /\ costs "a b f" = Ok (Some 3000%Z).
Proof. split; vm_compute; reflexivity. Qed.
