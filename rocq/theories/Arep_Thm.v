(** C111: the SGML report of asclite, as sclite reads it. *)
From Coq Require Import String Ascii.
From Coq Require Import List ZArith NArith Arith Bool Lia Permutation Sorting.Sorted.
From Verif Require Import Base Text_Model Sgml_Model Sgml_Spec Sgml_Proofs2 Sgml_Proofs3 Arep_Model Arep_Spec Arep_Proofs1 Arep_Proofs4.
Import ListNotations.
Local Open Scope res_scope.
Local Open Scope list_scope.

(** Whatever the orders of the iterators and of equal elements in std::sort: what sclite reads of a report
    is each segment of the alignment once, under its speaker, with all its words, their evaluations, texts,
    times and confidences, the labels of the first speech and the names of the files; the speakers stand in
    the order of their first segments.  If each speech is of one speaker the segments of a speaker are in
    their order, too. *)
Theorem C111_read : forall S e o maxn systm date p l, sorts S -> 1 <= maxn -> field e systm -> field e date ->
  Forall (speech_ok e o) (p :: l) -> hyp_files_ok e (p :: l) -> sp_segs p <> [] ->
  exists t gs ref hyp title,
    system_text S o systm date (p :: l) = Ok t /\
    load e maxn t = Ok [report_of o title date ref hyp (sp_labels p) (all_cells (p :: l)) gs] /\
    grouped (all_segs (p :: l)) gs /\ names (p :: l) ref hyp /\ is_base systm title /\
    (Forall one_speaker (p :: l) -> forall n ss, In (n, ss) gs -> in_order ss).
Proof. exact report_read_all. Qed.
Print Assumptions C111_read.

(** Without speech, or without segment in the first one, a null pointer is followed. *)
Theorem C111_empty_undef : forall S o systm date l, match l with p :: _ => sp_segs p = [] | [] => True end -> system_text S o systm date l = Undef.
Proof.
  intros S o systm date [|p l] H; [reflexivity|]. unfold system_text. cbn [add_speeches]. rewrite H. reflexivity.
Qed.
Print Assumptions C111_empty_undef.

(** A sort. *)
Fixpoint insert {A} (key : A -> Z) (x : A) (l : list A) : list A :=
  match l with [] => [x] | y :: r => if (key x <=? key y)%Z then x :: l else y :: insert key x r end.
Definition isort : sorter := fun A key l => fold_right (insert key) [] l.
Lemma insert_perm {A} (key : A -> Z) x l : Permutation (x :: l) (insert key x l).
Proof.
  induction l as [|y l IH]; cbn [insert]; [apply Permutation_refl|]. destruct (key x <=? key y)%Z; [apply Permutation_refl|].
  eapply perm_trans; [apply perm_swap|]. constructor. exact IH.
Qed.
Lemma insert_sorted {A} (key : A -> Z) x l : StronglySorted (fun a b => (key a <= key b)%Z) l -> StronglySorted (fun a b => (key a <= key b)%Z) (insert key x l).
Proof.
  intros H. induction H as [|y l H IH F]; cbn [insert]; [repeat constructor|]. destruct (Z.leb_spec (key x) (key y)).
  - constructor; [constructor; assumption|]. constructor; [assumption|]. eapply Forall_impl; [|exact F]. cbn. intros. lia.
  - constructor; [exact IH|]. apply Forall_forall. intros z Hz. apply (Permutation_in _ (Permutation_sym (insert_perm key x l))) in Hz as [<-|Hz]; [lia|].
    rewrite Forall_forall in F. apply F, Hz.
Qed.
Lemma isort_sorts : sorts isort.
Proof.
  intros A key l. unfold isort. induction l as [|x l [IH1 IH2]]; cbn [fold_right]; [split; constructor|]. split; [|apply insert_sorted; exact IH2].
  eapply perm_trans; [constructor; exact IH1|apply insert_perm].
Qed.

Definition plain_opts : opts := {| o_case := false; o_frag := false; o_both := false; o_spkr := false |}.
Definition word_of_text (s : string) (spkr : string) : tok :=
  {| tk_text := B s; tk_opt := false; tk_frag := FNone; tk_t1 := (-1)%Z; tk_t2 := (-1)%Z; tk_conf := None; tk_spkr := B spkr; tk_file := B "h.ctm" |}.
Definition hit (s : string) : cell := {| c_ref := Some (word_of_text s "a"); c_eval := Some (RC, Some (word_of_text s "a")) |}.
Definition plain_seg (spkr : string) (n : Z) (cs : list cell) : seg :=
  {| sg_id := B "(id)"; sg_label := []; sg_source := []; sg_chan := []; sg_num := n; sg_t1 := (-1)%Z; sg_t2 := (-1)%Z; sg_spkr := B spkr; sg_cells := cs |}.
Definition plain_speech (segs : list seg) : speech := {| sp_file := B "r.stm"; sp_labels := []; sp_segs := segs |}.

Ltac fld := apply field_plain; reflexivity.
Ltac toks := unfold tok_ok, side_tok; cbn [c_ref c_eval hit word_of_text tk_text tk_spkr o_spkr plain_opts]; first [exact I | split; [fld|intros D; first [discriminate D | repeat constructor; discriminate]]].
Ltac cells := repeat match goal with
  | |- Forall (cell_ok _ _) [] => apply Forall_nil
  | |- Forall (cell_ok _ _) (_ :: _) => apply Forall_cons; [split; cbn [c_ref c_eval hit]; [toks|split; [toks|first [exact I | split; discriminate | split; [discriminate|reflexivity] | split; [reflexivity|discriminate]]]]|] end.
Ltac segs := repeat match goal with
  | |- Forall (seg_ok _ _) [] => apply Forall_nil
  | |- Forall (seg_ok _ _) (_ :: _) => apply Forall_cons; [split; [fld|]; split; [fld|]; split; [fld|]; split; [fld|]; split; [fld|]; cbn [sg_cells plain_seg]; cells|] end.

(** The segments of a speaker are not in their order in general: only the last speaker of a speech is
    sorted. *)
Definition of_a_and_b : speech := plain_speech [plain_seg "a" 2 [hit "x"]; plain_seg "a" 1 [hit "y"]; plain_seg "b" 3 [hit "z"]].
Theorem C111_order_refuted : exists S e o systm date p t r,
  sorts S /\ field e systm /\ field e date /\ speech_ok e o p /\ hyp_files_ok e [p] /\ sp_segs p <> [] /\
  system_text S o systm date [p] = Ok t /\ load e 1 t = Ok [r] /\
  exists name paths, In (name, paths) (r_grps r) /\ ~ StronglySorted (fun a b => (pa_seq a <= pa_seq b)%Z) paths.
Proof.
  exists isort, ASCII, plain_opts, (B "h.ctm"), (B "today"), of_a_and_b. eexists. eexists.
  split; [exact isort_sorts|]. split; [fld|]. split; [fld|]. split.
  { split; [fld|]. split; [constructor|]. split; [constructor|]. cbn [sp_segs of_a_and_b plain_speech]. segs. }
  split. { intros c t I E. cbn in I. repeat (destruct I as [<-|I]; [cbn in E; injection E as <-; fld|]). destruct I. }
  split; [discriminate|]. split; [vm_compute; reflexivity|]. split; [vm_compute; reflexivity|].
  eexists. eexists. split; [left; reflexivity|]. intros H. inversion H as [|? ? _ F]; subst. inversion F as [|? ? D _]; subst. cbn in D. lia.
Qed.
Print Assumptions C111_order_refuted.

(** Where the report of each system goes. *)
Theorem C111_files : forall outdir opens systms,
  generate 1 outdir opens systms = map (fun s => if opens (file_name outdir s) then ToFile (file_name outdir s) else Lost) systms /\
  forall w, w <> 1%Z -> generate w outdir opens systms = map (fun _ => ToStdout) systms.
Proof.
  intros outdir opens systms. split.
  - induction systms as [|s l IH]; [reflexivity|]. cbn [generate map]. rewrite Z.eqb_refl. destruct (opens (file_name outdir s)); rewrite Z.eqb_refl, IH; reflexivity.
  - intros w Hw. induction systms as [|s l IH]; [reflexivity|]. cbn [generate map]. destruct (Z.eqb_spec w 1); [contradiction|]. destruct (Z.eqb_spec w 1); [contradiction|]. rewrite IH. reflexivity.
Qed.
Print Assumptions C111_files.
(** "the output will be redirected in the stdout to avoid any lost" *)
Theorem C111_redirected_refuted : ~ forall outdir opens s, opens (file_name outdir s) = false -> generate 1 outdir opens [s] = [ToStdout].
Proof. intros H. specialize (H [] (fun _ => false) [] eq_refl). discriminate. Qed.
Print Assumptions C111_redirected_refuted.
(** Two systems can have the same report file. *)
Theorem C111_own_file_refuted : exists outdir s1 s2, s1 <> s2 /\ generate 1 outdir (fun _ => true) [s1; s2] = [ToFile (file_name outdir s1); ToFile (file_name outdir s1)].
Proof. exists (B "out"), (B "a/h.ctm"), (B "b/h.ctm"). split; [discriminate|reflexivity]. Qed.
Print Assumptions C111_own_file_refuted.

(** Cells of systems that are not available are left out, but counted. *)
Theorem C111_unavailable_refuted : exists S o t r p, sorts S /\
  system_text S o (B "h.ctm") (B "today") [plain_speech [plain_seg "a" 1 [hit "x"; {| c_ref := Some (word_of_text "y" "a"); c_eval := Some (RU, None) |}; hit "z"]]] = Ok t /\
  load ASCII 1 t = Ok [r] /\ r_grps r = [(B "a", [p])] /\ length (pa_set p) = 2.
Proof.
  exists isort, plain_opts. do 3 eexists. split; [exact isort_sorts|]. split; [vm_compute; reflexivity|]. split; [vm_compute; reflexivity|]. split; [reflexivity|]. reflexivity.
Qed.
Print Assumptions C111_unavailable_refuted.
(** A quote in a word, which a reference file can have, is not escaped: another word is read. *)
Definition quote_word : tok :=
  {| tk_text := B "x" ++ QUOTE ++ B "y"; tk_opt := false; tk_frag := FNone; tk_t1 := (-1)%Z; tk_t2 := (-1)%Z; tk_conf := None; tk_spkr := B "a"; tk_file := B "h.ctm" |}.
Theorem C111_quote_refuted : exists S o t r p x v w, sorts S /\
  system_text S o (B "h.ctm") (B "today") [plain_speech [plain_seg "a" 1 [{| c_ref := Some quote_word; c_eval := Some (RC, Some quote_word) |}]]] = Ok t /\
  load ASCII 1 t = Ok [r] /\ r_grps r = [(B "a", [p])] /\ pa_set p = [x] /\ en_a x = Some v /\ en_b x = Some w /\ wd_value v = B "x" /\ wd_value w = B ",".
Proof.
  exists isort, plain_opts. do 6 eexists. split; [exact isort_sorts|]. split; [vm_compute; reflexivity|]. split; [vm_compute; reflexivity|]. repeat (split; [reflexivity|]). reflexivity.
Qed.
Print Assumptions C111_quote_refuted.
(** A colon in the id of a speaker: the report is not read if the ids of speakers are written. *)
Definition spkr_opts : opts := {| o_case := false; o_frag := false; o_both := false; o_spkr := true |}.
Theorem C111_colon_refuted : exists S t, sorts S /\
  system_text S spkr_opts (B "h.ctm") (B "today")
    [plain_speech [plain_seg "a" 1 [{| c_ref := Some (word_of_text "x" "a"); c_eval := Some (RC, Some (word_of_text "x" "a:b")) |}]]] = Ok t /\
  load ASCII 1 t = Exit.
Proof. exists isort. eexists. split; [exact isort_sorts|]. split; [vm_compute; reflexivity|]. vm_compute. reflexivity. Qed.
Print Assumptions C111_colon_refuted.

Lemma ok_inj {A} (a b : A) : Ok a = Ok b -> a = b. Proof. intros [= ->]. reflexivity. Qed.
(** With the ids of speakers, a word ends with the speaker of the hypothesis and whether the word was given to a wrong speaker. *)
Theorem C111_speaker : forall o x c r h s, o_spkr o = true -> c_eval c = Some (r, h) -> r <> RU -> cell_text o x c = Ok s ->
  (forall t, h = Some t -> exists front, s = front ++ B "," ++ tk_spkr t ++ B "," ++ (match r with RP => B "true" | _ => B "false" end)) /\
  (h = None -> exists front, s = front ++ B ",,").
Proof.
  intros o x c r h s O E N. unfold cell_text. rewrite E, O. cbn [aux_field].
  destruct r; try congruence; intros H; apply ok_inj in H; rewrite <- H; (split; [intros t ->; cbn [spkr_text sub_text]; eexists; rewrite !app_assoc; reflexivity|]); intros ->; cbn [spkr_text sub_text];
    eexists; rewrite ?app_nil_r; change (B ",,") with (B "," ++ B ","); rewrite !app_assoc; reflexivity.
Qed.
Print Assumptions C111_speaker.

(** ** A report *)
Definition some_opts : opts := {| o_case := false; o_frag := true; o_both := false; o_spkr := true |}.
Definition heard (s : string) (t1 t2 c : Z) (spkr : string) : tok :=
  {| tk_text := B s; tk_opt := false; tk_frag := FNone; tk_t1 := t1; tk_t2 := t2; tk_conf := Some c; tk_spkr := B spkr; tk_file := B "h.ctm" |}.
Definition maybe (s : string) : tok :=
  {| tk_text := B s; tk_opt := true; tk_frag := FEnd; tk_t1 := (-1)%Z; tk_t2 := (-1)%Z; tk_conf := None; tk_spkr := B "a"; tk_file := B "r.stm" |}.
Definition timed_seg (id spkr : string) (n : Z) (cs : list cell) : seg :=
  {| sg_id := B id; sg_label := B "<O>"; sg_source := B "f"; sg_chan := B "1"; sg_num := n; sg_t1 := 0; sg_t2 := 12340; sg_spkr := B spkr; sg_cells := cs |}.
Definition one : speech := {| sp_file := B "r.stm";
  sp_labels := [(LLabel, {| lb_id := B "O"; lb_title := B "Overall"; lb_desc := B "all" |}); (LCategory, {| lb_id := B "0"; lb_title := B "Sex"; lb_desc := B "" |})];
  sp_segs := [timed_seg "(a-2)" "a" 7 [{| c_ref := Some (word_of_text "The" "a"); c_eval := Some (RC, Some (heard "the" 100 350 900000 "s1")) |};
                                       {| c_ref := None; c_eval := Some (RI, Some (heard "a:b,c" 350 400 500000 "s1")) |};
                                       {| c_ref := Some (maybe "cat"); c_eval := Some (RC, None) |};
                                       {| c_ref := Some (word_of_text "sat" "a"); c_eval := Some (RP, Some (heard "mat" 1000 1600 0 "s2")) |};
                                       {| c_ref := Some (word_of_text "down" "a"); c_eval := Some (RD, None) |}];
              timed_seg "(a-1)" "a" 2 []] |}.
Definition two : speech := plain_speech [plain_seg "b" 5 [hit "x"]; plain_seg "b" 1 [hit "y"]].
Example two_ok : Forall (speech_ok UTF8 some_opts) [one; two] /\ hyp_files_ok UTF8 [one; two] /\ sp_segs one <> [] /\ Forall one_speaker [one; two].
Proof.
  assert (P : forall s, forallb (fun b => (0 <? b)%N && (b <? 128)%N && negb (b =? 34)%N && negb (b =? 44)%N && negb (b =? 58)%N && negb (b =? 10)%N) (B s) = true -> plain_id (B s)).
  { intros s H. apply Forall_forall. intros b I. rewrite forallb_forall in H. specialize (H b I). rewrite !andb_true_iff, !negb_true_iff, !N.ltb_lt, !N.eqb_neq in H. tauto. }
  split; [|split; [|split; [discriminate|]]].
  - apply Forall_cons; [|apply Forall_cons; [|apply Forall_nil]].
    + split; [fld|]. split; [|split].
      * apply Forall_cons; [|apply Forall_cons; [|apply Forall_nil]]; (split; [fld|]; split; [fld|]; split; [fld|vm_compute; reflexivity]).
      * constructor; [intros [D|[]]; discriminate|constructor; [intros []|constructor]].
      * apply Forall_cons; [|apply Forall_cons; [|apply Forall_nil]]; (split; [fld|]; split; [fld|]; split; [fld|]; split; [fld|]; split; [fld|]); cbn [sg_cells timed_seg]; [|apply Forall_nil].
        repeat (apply Forall_cons; [split; cbn [c_ref c_eval]; [|split]; unfold side_tok, tok_ok; first [exact I | split; [fld|intros _; apply P; reflexivity] | split; discriminate | split; [discriminate|reflexivity] | split; [reflexivity|discriminate]]|]). apply Forall_nil.
    + split; [fld|]. split; [constructor|]. split; [constructor|]. cbn [sp_segs two plain_speech].
      repeat (apply Forall_cons; [split; [fld|]; split; [fld|]; split; [fld|]; split; [fld|]; split; [fld|]; cbn [sg_cells plain_seg]; apply Forall_cons; [|apply Forall_nil]; split; cbn [c_ref c_eval hit]; [|split]; unfold side_tok, tok_ok; first [exact I | split; [fld|intros _; apply P; reflexivity]]|]). apply Forall_nil.
  - intros c t I E. cbn in I. repeat (destruct I as [<-|I]; [cbn in E; first [discriminate E | injection E as <-; fld]|]). destruct I.
  - repeat apply Forall_cons; try apply Forall_nil; intros a b Ia Ib; cbn in Ia, Ib;
      repeat match goal with H : _ \/ _ |- _ => destruct H as [<-|H] | H : False |- _ => destruct H end; reflexivity.
Qed.
Example two_read : exists t r, system_text isort some_opts (B "d/h.ctm") (B "today") [one; two] = Ok t /\ load UTF8 1 t = Ok [r] /\
  r_title r = B "h.ctm" /\ r_ref r = Some (B "r.stm") /\ r_hyp r = Some (B "h.ctm") /\
  map (fun g => (fst g, map pa_seq (snd g), map (fun p => map en_ev (pa_set p)) (snd g))) (r_grps r) =
    [(B "b", [1; 5]%Z, [[EC]; [EC]]); (B "a", [2; 7]%Z, [[]; [EC; EI; EC; ES; ED]])].
Proof. do 2 eexists. split; [vm_compute; reflexivity|]. split; [vm_compute; reflexivity|]. repeat (split; [reflexivity|]). reflexivity. Qed.
Example speaker_case : exists s, cell_text some_opts (auxs_of []) {| c_ref := Some (heard "x" 0 1 2 "a"); c_eval := Some (RP, Some (heard "x" 0 1 2 "b")) |} = Ok s /\
  s = B "S," ++ quoted (B "x") ++ B "," ++ quoted (B "x") ++ B ",b,true".
Proof. eexists. split; reflexivity. Qed.
