(** C78 the alignment report is read back as it was written. *)
From Coq Require Import String.
From Coq Require Import List ZArith NArith Arith Bool Lia.
From Verif Require Import Base Text_Model Text_Spec Sgml_Model Sgml_Spec Sgml_Proofs1 Sgml_Proofs2 Sgml_Proofs6 Sgml_Proofs7.
Import ListNotations.
Local Open Scope res_scope.
Local Open Scope list_scope.

(** * C78 *)
(** For every list of systems, not more than the reader has room for: the report can be written, and
    reading the file gives the systems in the same order with the same names, options, labels,
    categories, speakers, sentences and words; [report_read] says what becomes of the words. *)
Theorem C78_report_is_read_back : forall e maxn rs, Forall (report_ok e) rs -> length rs <= maxn ->
  exists file, dumps sgml_report rs = Ok file /\ load e maxn file = Ok (map report_read rs).
Proof. exact load_reports. Qed.
Print Assumptions C78_report_is_read_back.

(** Systems without tags and semicolons in the words, and without values that no flag announces, come
    back as they were. *)
Theorem C78_report_comes_back : forall e maxn rs, Forall (report_ok e) rs -> Forall report_kept rs -> length rs <= maxn ->
  exists file, dumps sgml_report rs = Ok file /\ load e maxn file = Ok rs.
Proof.
  intros e maxn rs H K L. destruct (load_reports e maxn rs H L) as (t & E & R). exists t. split; [exact E|].
  rewrite R. f_equal. apply (map_same _ _ _ report_kept_ok K).
Qed.
Print Assumptions C78_report_comes_back.

(** So such a report determines its systems. *)
Theorem C78_report_determines : forall e rs rs' file, Forall (report_ok e) rs -> Forall report_kept rs -> Forall (report_ok e) rs' -> Forall report_kept rs' ->
  dumps sgml_report rs = Ok file -> dumps sgml_report rs' = Ok file -> rs = rs'.
Proof.
  intros e rs rs' file H K H' K' E E'.
  destruct (C78_report_comes_back e (length rs + length rs') rs H K ltac:(lia)) as (t & E1 & R1).
  destruct (C78_report_comes_back e (length rs + length rs') rs' H' K' ltac:(lia)) as (t' & E2 & R2). congruence.
Qed.
Print Assumptions C78_report_determines.

(** More systems than there is room for are refused. *)
Theorem C78_too_many_systems : forall e maxn rs, Forall (report_ok e) rs -> maxn < length rs ->
  exists file, dumps sgml_report rs = Ok file /\ load e maxn file = Exit.
Proof. exact load_too_many. Qed.
Print Assumptions C78_too_many_systems.

(** The report of "-o nl.sgml" and of "-p", whose separators are ends of lines, cannot be read as soon
    as one sentence has a word. *)
Theorem C78_piped_report_refuted : forall e maxn r, report_ok e r -> 1 <= maxn ->
  (exists g p, In g (r_grps r) /\ In p (snd g) /\ pa_set p <> []) ->
  exists file, piped_report r = Ok file /\ load e maxn file = Exit.
Proof. exact load_piped. Qed.
Print Assumptions C78_piped_report_refuted.

Definition plain_flags : flags :=
  {| f_char := false; f_case := false; f_hwt := false; f_rwt := false; f_ht := false; f_rt := false;
     f_hconf := false; f_rconf := false; f_hwgt := false; f_rwgt := false |}.
Definition plain_word (v : string) : wrd :=
  {| wd_value := B v; wd_tag1 := None; wd_tag2 := None; wd_t1 := 0; wd_t2 := 0; wd_conf := 0; wd_weight := -1000000 |}.
Definition plain_path (i : string) (l : list entry) : rpath :=
  {| pa_id := B i; pa_labels := None; pa_file := None; pa_channel := None; pa_seq := 0; pa_flags := plain_flags;
     pa_rt1 := 0; pa_rt2 := 0; pa_ht1 := 0; pa_ht2 := 0; pa_set := l |}.
Definition plain_report (l : list (str * list rpath)) : report :=
  {| r_title := B "sys"; r_ref := Some (B "a.ref"); r_hyp := Some (B "a.hyp"); r_date := Some (B "today");
     r_frag := false; r_opt := false; r_wali := false; r_wfile := None; r_labels := []; r_cats := []; r_grps := l |}.
(** A word with a quote is written as it is, and the file cannot be read. *)
Theorem C78_quote_refuted : exists r file, sgml_report r = Ok file /\ load ASCII 1 file = Exit
  /\ (exists w, r = plain_report [(B "spk", [plain_path "(spk-1)" [{| en_ev := EC; en_a := Some w; en_b := Some w |}]])]
                /\ wd_value w = B "5" ++ [34%N]).
Proof.
  set (w := {| wd_value := B "5" ++ [34%N]; wd_tag1 := None; wd_tag2 := None; wd_t1 := 0; wd_t2 := 0; wd_conf := 0; wd_weight := -1000000 |}).
  exists (plain_report [(B "spk", [plain_path "(spk-1)" [{| en_ev := EC; en_a := Some w; en_b := Some w |}]])]).
  eexists. split; [vm_compute; reflexivity|]. split; [vm_compute; reflexivity|]. exists w. split; reflexivity.
Qed.
Print Assumptions C78_quote_refuted.
(** A word with a semicolon comes back with a backslash, and with two when the report is written again. *)
Theorem C78_semicolon_refuted : exists r file r', report_ok ASCII r /\ sgml_report r = Ok file /\ load ASCII 1 file = Ok [r'] /\ r' <> r
  /\ exists file', sgml_report r' = Ok file' /\ file' <> file.
Proof.
  exists (plain_report [(B "spk", [plain_path "(spk-1)" [{| en_ev := EI; en_a := None; en_b := Some (plain_word "a;b") |}]])]).
  eexists. eexists. split.
  - unfold report_ok, plain_report. cbn [r_title r_ref r_hyp r_date r_wali r_labels r_cats r_grps].
    assert (NM : forall s, forallb (fun b => plain b && negb (b =? 34)%N && negb (b =? 10)%N) (B s) = true -> B s <> [] -> named ASCII (Some (B s))).
    { intros s Hs Hn. exists (B s). split; [reflexivity|]. split; [apply field_plain; exact Hs|exact Hn]. }
    split; [apply field_plain; reflexivity|]. do 3 (split; [apply NM; [reflexivity|discriminate]|]). split; [discriminate|].
    do 2 (split; [constructor|]). do 2 (split; [constructor|]). split; [constructor; [intros []|constructor]|].
    constructor; [|constructor]. split; [apply field_plain; reflexivity|]. constructor; [|constructor].
    split; [apply field_plain; reflexivity|]. do 3 (split; [exact I|]). constructor; [|constructor].
    exists (plain_word "a;b"). split; [reflexivity|]. split; [apply field_plain; reflexivity|]. do 2 (split; [exact I|]). vm_compute. reflexivity.
  - split; [vm_compute; reflexivity|]. split; [vm_compute; reflexivity|]. split; [intros E; vm_compute in E; discriminate|].
    eexists. split; [vm_compute; reflexivity|]. intros E; vm_compute in E; discriminate.
Qed.
Print Assumptions C78_semicolon_refuted.

(** ** A report *)
Definition word_at (v : string) (t1 t2 c : Z) : wrd :=
  {| wd_value := B v; wd_tag1 := None; wd_tag2 := None; wd_t1 := t1; wd_t2 := t2; wd_conf := c; wd_weight := -1000000 |}.
Definition timed_flags : flags :=
  {| f_char := false; f_case := true; f_hwt := true; f_rwt := false; f_ht := true; f_rt := true;
     f_hconf := true; f_rconf := false; f_hwgt := false; f_rwgt := false |}.
Definition two_speakers : report :=
  {| r_title := B "sys 1"; r_ref := Some (B "a.stm"); r_hyp := Some (B "a.ctm"); r_date := Some (B "Mon Jan 1");
     r_frag := true; r_opt := false; r_wali := true; r_wfile := Some (B "w.wwl");
     r_labels := [{| lb_id := B "O"; lb_title := B "Overall"; lb_desc := B "" |}];
     r_cats := [{| lb_id := B "0"; lb_title := B ""; lb_desc := B "" |}; {| lb_id := B "1"; lb_title := B "Sex"; lb_desc := B "of the speaker" |}];
     r_grps :=
       [(B "spk one",
         [{| pa_id := B "(spk-1)"; pa_labels := Some (B "<O>"); pa_file := Some (B "f"); pa_channel := Some (B "A"); pa_seq := 3; pa_flags := timed_flags;
             pa_rt1 := 120; pa_rt2 := 1500; pa_ht1 := 100; pa_ht2 := 1600;
             pa_set := [{| en_ev := EC; en_a := Some (plain_word "the"); en_b := Some (word_at "the" 100 350 900000) |};
                        {| en_ev := EI; en_a := None; en_b := Some (word_at "a:b,c" 350 400 500000) |};
                        {| en_ev := ED; en_a := Some (plain_word "cat"); en_b := None |};
                        {| en_ev := ES; en_a := Some (plain_word "sat"); en_b := Some (word_at "mat" 1000 1600 (-1)) |}] |}]);
        (B "2", [plain_path "(2-1)" []; plain_path "(2-2)" [{| en_ev := ED; en_a := Some (plain_word "x"); en_b := None |}]])] |}.
Ltac a_field := apply field_plain; reflexivity.
Ltac a_labels := repeat match goal with
  | |- Forall _ [] => constructor
  | |- Forall _ (_ :: _) => apply Forall_cons; [split; [a_field|split; [a_field|split; [a_field|vm_compute; reflexivity]]]|] end.
Ltac a_word := eexists; split; [reflexivity|]; split; [a_field|]; split; [exact I|]; split; [exact I|]; vm_compute; reflexivity.
Example two_speakers_ok : report_ok ASCII two_speakers /\ report_kept two_speakers.
Proof.
  assert (NM : forall s, forallb (fun b => plain b && negb (b =? 34)%N && negb (b =? 10)%N) (B s) = true -> B s <> [] -> named ASCII (Some (B s))).
  { intros s Hs Hn. exists (B s). split; [reflexivity|]. split; [apply field_plain; exact Hs|exact Hn]. }
  split.
  - unfold report_ok, two_speakers. cbn [r_title r_ref r_hyp r_date r_wali r_wfile r_labels r_cats r_grps].
    split; [a_field|]. do 3 (split; [apply NM; [reflexivity|discriminate]|]). split; [intros _; exists (B "w.wwl"); split; [reflexivity|a_field]|].
    split; [a_labels|]. split; [repeat constructor; intros []|]. split; [a_labels|].
    split; [constructor; [intros [J|J]; [vm_compute in J; discriminate|exact J]|repeat constructor; intros []]|].
    split; [constructor; [intros [J|J]; [vm_compute in J; discriminate|exact J]|repeat constructor; intros []]|].
    apply Forall_cons; [|apply Forall_cons; [|constructor]]; (split; [a_field|]); cbn [snd].
    + constructor; [|constructor]. split; [a_field|]. do 3 (split; [cbn [opt_field pa_labels pa_file pa_channel]; a_field|]).
      cbn [pa_set]. repeat (apply Forall_cons; [cbn [entry_ok en_ev en_a en_b]; try (split; a_word); a_word|]). constructor.
    + constructor; [|constructor; [|constructor]]; (split; [a_field|]); do 3 (split; [exact I|]); cbn [plain_path pa_set]; [constructor|].
      constructor; [a_word|constructor].
  - split; [discriminate|]. cbn [two_speakers r_grps].
    repeat match goal with
      | |- Forall _ [] => constructor
      | |- Forall _ (_ :: _) => apply Forall_cons
      | |- path_kept _ => unfold path_kept; cbn [plain_path pa_labels pa_file pa_channel pa_flags f_rt f_ht timed_flags plain_flags pa_rt1 pa_rt2 pa_ht1 pa_ht2 pa_set]; repeat split; try discriminate
      | |- entry_kept _ _ => unfold entry_kept, side_kept, word_kept; cbn; repeat split; intuition discriminate
      | |- _ => cbn [snd]
      end.
Qed.
Example two_systems_come_back : exists file, dumps sgml_report [two_speakers; plain_report []] = Ok file
  /\ load UTF8 5 file = Ok [two_speakers; plain_report []].
Proof. eexists. split; [vm_compute; reflexivity|]. vm_compute. reflexivity. Qed.
Example two_speakers_piped : exists file, piped_report two_speakers = Ok file /\ load ASCII 5 file = Exit.
Proof.
  apply C78_piped_report_refuted; [apply two_speakers_ok|lia|]. eexists. eexists. split; [left; reflexivity|]. split; [left; reflexivity|]. discriminate.
Qed.
Example one_too_many : exists file, dumps sgml_report [two_speakers; two_speakers] = Ok file /\ load ASCII 1 file = Exit.
Proof. apply C78_too_many_systems; [apply Forall_cons; [apply two_speakers_ok|apply Forall_cons; [apply two_speakers_ok|constructor]]|cbn; lia]. Qed.
