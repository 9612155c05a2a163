(** C119: the command line of sclite. *)
From Coq Require Import String.
From Coq Require Import List ZArith NArith Arith Bool Lia.
From Verif Require Store_Model Store_Proofs.
From Verif Require Import Base Sgml_Model Scl_Model Scl_Spec Scl_Proofs1 Scl_Proofs2 Scl_Proofs3 Scl_Proofs4 Scl_Proofs5 Scl_Proofs6.
Import ListNotations.
Local Open Scope list_scope.

(** Options in any order, with what follows them and is not looked at: every hypothesis is aligned as the options say and then
    reported on, if the inputs and the options go together; otherwise the program ends with an error. *)
Theorem C119_options : forall e l tail, l <> [] -> Forall (usable e) l -> length (hyps_of l) <= 40 -> ignored l tail -> on l PipeIn = false ->
  (ready e l -> exists r ev o, ref_of l = Some r /\ scoring e l r 0 (hyps_of l) ev /\ main e (flat_map words l ++ tail) = Ok o /\
     does l o (ev ++ piped_out l FromHyp (length (hyps_of l)))) /\
  (~ ready e l -> main e (flat_map words l ++ tail) = Exit).
Proof.
  intros e l tail N U L G P. destruct (main_ok e l tail N U L G P) as (A1 & A2 & _). split; [|exact A2].
  intros R. destruct (A1 R) as (o & E & r & ev & B1 & B2 & B3). exists r, ev, o. repeat (split; [assumption|]). exact B3.
Qed.
Print Assumptions C119_options.

(** Alignments from another program: each is reported on. *)
Theorem C119_piped : forall e l tail titles, l <> [] -> Forall (usable e) l -> ignored l tail -> on l PipeIn = true -> ref_of l = None -> hyps_of l = [] ->
  chars_of l = (false, false, false) -> reduce_of l = (false, false) -> e_piped e = Some titles ->
  (compatible l /\ weights_read e l -> exists ev o, reporting l 0 titles ev /\ main e (flat_map words l ++ tail) = Ok o /\ does l o (ev ++ piped_out l FromPipe (length titles))) /\
  (~ (compatible l /\ weights_read e l) -> main e (flat_map words l ++ tail) = Exit).
Proof.
  intros e l tail titles N U G P R H C RD T. destruct (main_piped e l tail titles N U G P R H C RD T) as (A1 & A2 & _). split; [|exact A2].
  intros Y. destruct (A1 Y) as (o & E & ev & B1 & B2). exists ev, o. repeat (split; [assumption|]). exact B2.
Qed.
Print Assumptions C119_piped.

(** A word that looks like an option and is none is an error. *)
Theorem C119_unknown : forall e l w rest, Forall (usable e) l -> length (hyps_of l) <= 40 -> (exists r, w = 45%N :: r) -> ~ In w (map B option_words) ->
  main e (flat_map words l ++ w :: rest) = Exit.
Proof.
  intros e l w rest U L D H. apply loop_exit; [exact U|exact L|apply dash_iff; exact D|]. intros s. unfold step. rewrite (classify_unknown w H). reflexivity.
Qed.
Print Assumptions C119_unknown.

(** An option without its value at the end is an error. *)
Theorem C119_missing : forall e l w, Forall (usable e) l -> length (hyps_of l) <= 40 -> In w unfinished -> main e (flat_map words l ++ [B w]) = Exit.
Proof.
  intros e l w U L I. apply loop_exit; [exact U|exact L| |].
  - cbn [unfinished In] in I. intuition (subst w; reflexivity).
  - intros s. cbn [unfinished In] in I. intuition (subst w; try reflexivity). change (step e (B "-L") [] s) with (if e_slm e then one_arg (sets SLm) [] s else Exit). destruct (e_slm e); reflexivity.
Qed.
Print Assumptions C119_missing.

(** So is a value that is no good. *)
Lemma unknown_encoding n : ~ named encodings n -> encoding n = None.
Proof.
  intros H. unfold encoding.
  assert (K : forall k m, In k encodings -> map lower (B m) = B k -> icase n (B m) = false).
  { intros k m I M. destruct (icase n (B m)) eqn:E; [|reflexivity]. apply (icase_iff n (B m) k M) in E. destruct H. exists k. split; [exact I|]. apply same_letters_iff. rewrite E, <- M, map_map.
    apply map_ext. intros c. unfold lower. destruct (65 <=? c)%N eqn:E1, (c <=? 90)%N eqn:E2; cbn [andb]; rewrite ?E1, ?E2; cbn [andb]; try reflexivity.
    apply N.leb_le in E1, E2. destruct (N.leb_spec (c + 32) 90); [lia|]. rewrite andb_false_r. reflexivity. }
  rewrite (K "euc"%string "EUC"%string), (K "gb"%string "GB"%string), (K "ext_ascii"%string "EXT_ASCII"%string), (K "ascii"%string "ASCII"%string), (K "utf-8"%string "UTF-8"%string); try reflexivity; cbn; tauto.
Qed.
Lemma unknown_conversion n : ~ named conversions n -> profile n = None.
Proof.
  intros H. unfold profile. destruct (find (icase n) profiles) as [p|] eqn:E; [|reflexivity]. apply find_some in E. destruct E as [I E]. destruct H.
  unfold icase in E. apply same_iff in E. unfold profiles in I. cbn [In] in I.
  assert (K : exists k, In k conversions /\ p = B k) by (repeat destruct I as [<-|I]; try contradiction; eexists; (split; [|reflexivity]); cbn; tauto).
  destruct K as (k & K & ->). exists k. split; [exact K|]. apply same_letters_iff. exact E.
Qed.
Lemma bad_word f ws w rest : (forall x s, In x ws -> dash x = false /\ exists s', f x s = Ok s') -> dash w = false -> (forall s, f w s = Exit) -> forall s, word_loop f (ws ++ w :: rest) s = Exit.
Proof.
  intros H D E. induction ws as [|x ws IH]; intros s; cbn [app word_loop]; [rewrite D; cbn [negb]; rewrite E; reflexivity|].
  destruct (H x s (or_introl eq_refl)) as (-> & s' & ->). cbn [negb rbind]. apply IH. intros y t K. apply H. right. exact K.
Qed.
Lemma same_not a b : a <> b -> same a b = false.
Proof. intros H. destruct (same a b) eqn:E; [apply same_iff in E; contradiction|reflexivity]. Qed.
Theorem C119_value : forall e l v, Forall (usable e) l -> length (hyps_of l) <= 40 -> bad_value e v -> main e (flat_map words l ++ v) = Exit.
Proof.
  intros e l v U L H. assert (Q : exists w rest, v = w :: rest /\ dash w = true /\ forall s, step e w rest s = Exit).
  { destruct H as [w f rest I D|n rest D|n w rest N W D|ws w rest A W D|ws w rest A W D|a rest D|a x rest D|a x w rest W D|rest D|rest D]; eexists; eexists; (split; [reflexivity|]).
    - assert (F : dash f = true). { destruct (dash f) eqn:E; [reflexivity|]. destruct D. intros r ->. discriminate E. }
      cbn [In] in I. destruct I as [<-|[<-|[]]]; (split; [reflexivity|]); intros s.
      + change (ref_arg (f :: rest) s = Exit). cbn [ref_arg]. rewrite F. reflexivity.
      + change (hyp_arg (f :: rest) s = Exit). cbn [hyp_arg]. rewrite F. reflexivity.
    - split; [reflexivity|]. intros s. change (enc_arg (n :: rest) s = Exit). cbn [enc_arg]. rewrite (unknown_encoding n D). destruct (dash n); reflexivity.
    - split; [reflexivity|]. intros s. change (enc_arg (n :: w :: rest) s = Exit). cbn [enc_arg]. destruct (enc_ok n N) as (D1 & k & x & _ & _ & ->). rewrite D1, (no_dash_false w W), (unknown_conversion w D). reflexivity.
    - split; [reflexivity|]. intros s. cbv beta. unfold step. change (classify (B "-m")) with KReduce. cbv iota.
      rewrite (bad_word reduce_word ws w rest); [reflexivity| |apply no_dash_false; exact W|].
      + intros x t K. destruct (A x K) as [<-|[<-|[]]]; (split; [reflexivity|]); eexists; reflexivity.
      + intros t. unfold reduce_word. rewrite !same_not; [reflexivity|..]; intros ->; apply D; cbn; tauto.
    - split; [reflexivity|]. intros s. cbv beta. unfold step. change (classify (B "-c")) with KChar. cbv iota.
      apply bad_word; [|apply no_dash_false; exact W|].
      + intros x t K. destruct (A x K) as [<-|[<-|[]]]; (split; [reflexivity|]); eexists; reflexivity.
      + intros t. unfold char_word. rewrite !same_not; [reflexivity|..]; intros ->; apply D; cbn; tauto.
    - split; [reflexivity|]. intros s. change (segment_arg e (a :: rest) s = Exit). destruct rest as [|x rest]; [reflexivity|]. cbn [segment_arg].
      rewrite !(same_not a); [destruct (dash a); reflexivity|..]; intros ->; apply D; cbn; tauto.
    - split; [reflexivity|]. intros s. change (segment_arg e (a :: x :: rest) s = Exit). cbn [segment_arg].
      destruct (dash a); [reflexivity|]. destruct (dash x) eqn:EX.
      + destruct (same a (B "algo1")), (same a (B "algo2")); reflexivity.
      + destruct (e_exists e x) eqn:EE.
        * destruct D. split; [|reflexivity]. intros r ->. discriminate EX.
        * destruct (same a (B "algo1")), (same a (B "algo2")); reflexivity.
    - split; [reflexivity|]. intros s. change (segment_arg e (a :: x :: w :: rest) s = Exit). cbn [segment_arg]. rewrite (no_dash_false w W), (same_not w _ D). cbn [negb].
      destruct (dash a), (same a (B "algo1")), (same a (B "algo2")), (dash x), (e_exists e x); reflexivity.
    - split; [reflexivity|]. intros s. change ((if e_diff e then Ok (setb BDiff true s, rest) else Exit) = Exit). rewrite D. reflexivity.
    - split; [reflexivity|]. intros s. change ((if e_slm e then one_arg (sets SLm) rest s else Exit) = Exit). rewrite D. reflexivity. }
  destruct Q as (w & rest & -> & D & S). apply loop_exit; assumption.
Qed.
Print Assumptions C119_value.

(** ** What does not hold *)
(** Piped alignments together with files: the array of alignments is read where nothing was written. *)
Theorem C119_mixed_refuted : forall e l tail titles, l <> [] -> Forall (usable e) l -> length (hyps_of l) <= 40 -> ignored l tail -> on l PipeIn = true -> hyps_of l <> [] ->
  e_piped e = Some titles -> titles <> [] -> forall o, main e (flat_map words l ++ tail) <> Ok o.
Proof. exact main_mixed. Qed.
Print Assumptions C119_mixed_refuted.
Definition plain : env := {| e_slm := false; e_diff := true; e_exists := fun _ => true; e_weights := fun _ => true; e_aligns := fun _ => true; e_piped := Some [B "one"] |}.
Theorem C119_mixed_undefined_refuted : exists l, Forall (usable plain) l /\ on l PipeIn = true /\ hyps_of l <> [] /\ ref_of l <> None /\ main plain (flat_map words l) = Undef.
Proof.
  exists [Flag PipeIn; Reference (B "r.stm") (Some (B "stm")); Hypothesis_ (B "h.ctm") (Some (B "ctm", None))].
  split; [|split; [reflexivity|split; [discriminate|split; [discriminate|vm_compute; reflexivity]]]].
  repeat constructor; cbn; try (intros r K; discriminate K).
  - intros w [= <-] r K. discriminate K.
  - intros r K. injection H as <- <-. discriminate K.
  - intros x K. injection H as <- <-. discriminate K.
Qed.
Print Assumptions C119_mixed_undefined_refuted.
(** -c and -m with piped alignments read a format there is none of. *)
Theorem C119_null_refuted : main plain [B "-P"; B "-c"] = Undef /\ main plain [B "-P"; B "-m"; B "ref"] = Undef.
Proof. split; vm_compute; reflexivity. Qed.
Print Assumptions C119_null_refuted.
(** "This option may be used more than once": 40 times. *)
Theorem C119_many_refuted : main plain (B "-r" :: B "r" :: B "-i" :: B "wsj" :: concat (repeat [B "-h"; B "h"] 41)) = Undef /\
  exists o, main plain (B "-r" :: B "r" :: B "-i" :: B "wsj" :: concat (repeat [B "-h"; B "h"] 40)) = Ok o.
Proof. split; [vm_compute; reflexivity|eexists; vm_compute; reflexivity]. Qed.
Print Assumptions C119_many_refuted.
(** A report asked for twice is not written. *)
Theorem C119_twice_refuted : exists o, main plain [B "-r"; B "r"; B "-h"; B "h"; B "-i"; B "wsj"; B "-o"; B "sum"; B "all"] = Ok o /\ forall x to z, ~ In (Report RSum x to z) (o_events o).
Proof. eexists. split; [vm_compute; reflexivity|]. intros x to z K. cbn [o_events In] in K. intuition discriminate. Qed.
Print Assumptions C119_twice_refuted.
(** "Default: 'sum stdout'" is lost with -C, even with "-C none": nothing is reported. *)
Theorem C119_default_refuted : exists o, main plain [B "-r"; B "r"; B "-h"; B "h"; B "-i"; B "wsj"; B "-C"; B "none"] = Ok o /\ forall y x to z, ~ In (Report y x to z) (o_events o).
Proof. eexists. split; [vm_compute; reflexivity|]. intros y x to z K. cbn [o_events In] in K. intuition discriminate. Qed.
Print Assumptions C119_default_refuted.
(** "For multiple hypothesis files, the root filename is 'name'.'hypfile'": the second overwrites the first. *)
Theorem C119_name_refuted : exists o root, main plain [B "-r"; B "r"; B "-h"; B "h1"; B "-h"; B "h2"; B "-i"; B "wsj"; B "-o"; B "sum"; B "-n"; B "x"] = Ok o /\
  In (Report RSum (FromHyp 0) (Some root) None) (o_events o) /\ In (Report RSum (FromHyp 1) (Some root) None) (o_events o).
Proof. eexists. exists (B "x"). split; [vm_compute; reflexivity|]. cbn [o_events In]. split; vm_compute; tauto. Qed.
Print Assumptions C119_name_refuted.
(** Two hypotheses of the same name in two directories share their files with -O. *)
Theorem C119_directory_refuted : exists o root, main plain [B "-r"; B "r"; B "-h"; B "a/h"; B "-h"; B "b/h"; B "-i"; B "wsj"; B "-o"; B "sum"; B "-O"; B "out"] = Ok o /\
  In (Report RSum (FromHyp 0) (Some root) None) (o_events o) /\ In (Report RSum (FromHyp 1) (Some root) None) (o_events o).
Proof. eexists. exists (B "out/h"). split; [vm_compute; reflexivity|]. cbn [o_events In]. split; vm_compute; tauto. Qed.
Print Assumptions C119_directory_refuted.
(** The format of an earlier reference is that of a later one that names none. *)
Theorem C119_format_refuted : exists o c, main plain [B "-r"; B "a"; B "stm"; B "-r"; B "b"; B "-h"; B "h"; B "ctm"] = Ok o /\ In (Align c) (o_events o) /\ k_method c = StmDp /\ k_ref c = B "b".
Proof. eexists. eexists. split; [vm_compute; reflexivity|]. split; [left; reflexivity|]. split; reflexivity. Qed.
Print Assumptions C119_format_refuted.
(** -c and -d with two ctm files are accepted and not used; -F with -d, "exclusive", too. *)
Theorem C119_unused_refuted :
  (exists o c, main plain [B "-r"; B "r"; B "ctm"; B "-h"; B "h"; B "ctm"; B "-c"] = Ok o /\ In (Align c) (o_events o) /\ k_char c = None) /\
  (exists o c, main plain [B "-r"; B "r"; B "ctm"; B "-h"; B "h"; B "ctm"; B "-d"] = Ok o /\ In (Align c) (o_events o) /\ k_method c = CtmDp) /\
  (exists o c, main plain [B "-r"; B "r"; B "-h"; B "h"; B "-i"; B "wsj"; B "-F"; B "-d"] = Ok o /\ In (Align c) (o_events o) /\ k_frag c = None).
Proof. repeat split; eexists; eexists; (split; [vm_compute; reflexivity|]); (split; [left; reflexivity|reflexivity]). Qed.
Print Assumptions C119_unused_refuted.
(** -S given twice with the same algorithm switches it off. *)
Theorem C119_segment_refuted : exists o c, main plain [B "-r"; B "r"; B "-h"; B "h"; B "-i"; B "wsj"; B "-S"; B "algo1"; B "lex"; B "-S"; B "algo1"; B "lex"] = Ok o /\
  In (Align c) (o_events o) /\ k_segment c = Some (false, false, Some (B "lex"), false).
Proof. eexists. eexists. split; [vm_compute; reflexivity|]. split; [left; reflexivity|reflexivity]. Qed.
Print Assumptions C119_segment_refuted.
(** A reference in tmk format is accepted by the checks and cannot be scored against anything. *)
Theorem C119_tmk_refuted : forall h, In h ["trn"; "txt"; "stm"; "ctm"; "tmk"]%string -> main plain [B "-r"; B "r"; B "tmk"; B "-h"; B "h"; B h; B "-i"; B "wsj"] = Exit.
Proof. intros h K. cbn [In] in K. intuition (subst h; vm_compute; reflexivity). Qed.
Print Assumptions C119_tmk_refuted.

(** ** Cases *)
Definition some_options : list option_ :=
  [Flag CaseSensitive; Hypothesis_ (B "a/x.ctm") (Some (B "ctm", Some (B "one"))); Reference (B "r.stm") (Some (B "stm")); Reports [B "all"; B "stdout"; B "none"; B "pra"; B "lur"];
   Hypothesis_ (B "y.ctm") (Some (B "ctm", None)); Reduce [OfHyp; OfRef]; Characters [DeleteHyphens]; Encoding (B "Utf-8") (Some (B "generic")); Set_ Width (B "80");
   Confidence [B "det"]; Set_ Directory (B "out"); Segment Algo2 (B "lex") true; Set_ Level (B "-2")].
Example options_case : some_options <> [] /\ Forall (usable plain) some_options /\ length (hyps_of some_options) <= 40 /\ ignored some_options [B "x"; B "-r"] /\
  on some_options PipeIn = false /\ ready plain some_options /\ map (shown some_options) [RSum; RPra; RLur; RStdout] = [false; true; true; false].
Proof.
  split; [discriminate|]. split.
  { assert (D : forall c r, c <> 45%N -> no_dash (c :: r)) by (intros c r K r' E; congruence).
    repeat first [apply Forall_cons | apply Forall_nil]; cbn [usable]; try exact I; try reflexivity.
    - split; [apply D; discriminate|]. intros w t [= <- <-]. split; [apply D; discriminate|]. intros x [= <-]. apply D. discriminate.
    - split; [apply D; discriminate|]. intros w [= <-]. apply D. discriminate.
    - split; [discriminate|]. repeat first [apply Forall_cons | apply Forall_nil]; apply D; discriminate.
    - split; [apply D; discriminate|]. intros w t [= <- <-]. split; [apply D; discriminate|]. discriminate.
    - split; [exists "utf-8"%string|intros w [= <-]; exists "generic"%string]; (split; [cbn; tauto|]); apply same_letters_iff; reflexivity.
    - split; [discriminate|]. repeat constructor. apply D. discriminate.
    - split; [apply D; discriminate|reflexivity]. }
  split; [vm_compute; lia|]. split.
  { right. split; [eexists (removelast some_options), (Set_ Level (B "-2")); split; [reflexivity|exact I]|]. exists (B "x"), [B "-r"]. split; [reflexivity|]. intros r K. discriminate K. }
  split; [reflexivity|]. split; [|reflexivity].
  split; [|split; [|split; [|split]]].
  - split; [exists (B "r.stm"); split; reflexivity|]. split; [discriminate|]. split; [repeat constructor|]. split; [vm_compute; tauto|]. split; [repeat constructor; vm_compute; tauto|].
    split; [intros _ K; vm_compute in K; intuition discriminate|discriminate].
  - split; [discriminate|]. split; [discriminate|]. split; [intros _; split; [reflexivity|split; [repeat constructor|reflexivity]]|]. split; [intros _; split; [reflexivity|intros [_ K]; discriminate K]|].
    split; [left; reflexivity|]. split; [left; split; reflexivity|discriminate].
  - intros w K. discriminate K.
  - repeat constructor; exists StmDp; apply (s_stm plain false).
  - intros i _. reflexivity.
Qed.

Example refused_case : ~ ready plain (some_options ++ [Flag UseDiff]) /\ ~ ready plain (some_options ++ [Set_ Weights (B "w")]) /\ ~ ready plain (some_options ++ [Reports [B "wws"]]) /\
  ~ ready plain (some_options ++ [Set_ Id (B "other")]) /\ ~ ready plain (some_options ++ [Hypothesis_ (B "z") None]).
Proof.
  repeat split; intros (G & C & _).
  - destruct C as (_ & _ & C & _). destruct C as (_ & _ & C); [discriminate|discriminate C].
  - destruct C as (_ & _ & _ & _ & _ & C & _). destruct C as [[C _]|C]; [discriminate C|]. apply C. right. left. reflexivity.
  - destruct C as (_ & _ & _ & _ & _ & _ & C). destruct (C eq_refl) as [K|K]; apply K; reflexivity.
  - destruct C as (_ & C & _). specialize (C _ eq_refl). vm_compute in C. intuition discriminate.
  - destruct G as (_ & _ & _ & _ & _ & G & _). apply (G eq_refl). vm_compute. tauto.
Qed.

Example piped_case : let l := [Flag PipeIn; Reports [B "sum"]; Flag PipeOut] in Forall (usable plain) l /\ on l PipeIn = true /\ ref_of l = None /\ hyps_of l = [] /\
  chars_of l = (false, false, false) /\ reduce_of l = (false, false) /\ compatible l /\ weights_read plain l.
Proof.
  cbv zeta. split; [repeat first [apply Forall_cons | apply Forall_nil]; cbn [usable]; try exact I; split; [discriminate|]; constructor; [intros r K; discriminate K|constructor]|]. repeat (split; [reflexivity|]).
  split; [|intros w K; discriminate K]. split; [reflexivity|]. split; [discriminate|]. split; [intros K; destruct K; reflexivity|]. split; [discriminate|]. split; [left; reflexivity|]. split; [left; split; reflexivity|discriminate].
Qed.

Example unknown_case : (exists r, B "-x" = 45%N :: r) /\ ~ In (B "-x") (map B option_words) /\ In "-S"%string unfinished.
Proof. split; [eexists; reflexivity|]. split; [vm_compute; intuition discriminate|cbn; tauto]. Qed.
Example value_case : bad_value plain [B "-m"; B "ref"; B "both"; B "x"] /\ bad_value plain [B "-e"; B "utf-9"].
Proof.
  split.
  - apply (bv_reduce plain [B "ref"] (B "both") [B "x"]); [intros x [<-|[]]; cbn; tauto|intros r; discriminate|]. intros [K|[K|[]]]; discriminate K.
  - apply bv_encoding. intros (n & I & H). cbn [encodings In] in I. apply same_letters_iff in H. destruct I as [<-|[<-|[<-|[<-|[<-|[]]]]]]; discriminate H.
Qed.
