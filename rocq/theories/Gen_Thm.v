(** The generic alignment of asclite and its XML report (C115). *)
From Coq Require Import String.
From Coq Require Import List ZArith NArith Arith QArith Bool Lia Sorting.Sorted.
From Verif Require Import Base Sgml_Model Skip_Model Gen_Model Gen_Spec Gen_Proofs1 Gen_Proofs2 Gen_Proofs3.
From Verif Require AsTrn_Spec AsTrn_Proofs Segm_Model.
Import ListNotations.
Local Open Scope nat_scope.
Local Open Scope list_scope.

(** A reader of XML finds in the report of a run the systems, in the order they were given, and for every
    column of the alignments of the groups that were aligned, in their order, its place and its words,
    with a word for every system at least.  The aligner is any function. *)
Theorem C115_report : forall A c (segmenter : list (str * A) -> list group) align (l : list (str * str * A)),
  let groups := segmenter (fst (load_generic l)) in
  (forall g, In g groups -> exists o, decide c g = Ok o) ->
  (forall g b, In g groups -> decide c g = Ok (Aligned b) -> (min_time g < max_time g)%Z) ->
  Forall (fun s => value_ok (system_name s) /\ value_ok (system_file s)) l ->
  (forall g b col, In g groups -> In col (align g b) -> column_ok col) ->
  exists t cols slots,
    generic_report c segmenter align l = Ok t /\
    aligned c align groups cols /\
    read_report t = Some (map (fun s => (system_name s, system_file s)) l, slots) /\
    Forall2 (slot_for (length l)) (concat cols) slots.
Proof.
  intros A c segmenter align l groups D T V K. destruct (align_total c align groups D T) as [cols E].
  pose proof (align_aligned c align groups cols E) as AL.
  destruct (load_all l) as (_ & S & _).
  assert (Ln : length (snd (load_generic l)) = length l) by (rewrite S; apply map_length).
  destruct (report_read (snd (load_generic l)) cols) as (slots & R & F).
  - rewrite S. apply Forall_map. eapply Forall_impl; [|exact V]. intros s H. exact H.
  - clear - AL K. revert K. generalize groups, AL. clear AL groups. intros groups AL. induction AL as [|g r m w _ _ IH|g r m b _ _ IH]; intros K col I; [destruct I| |].
    + apply IH; [|exact I]. intros h b' col' Ih. apply K. right. exact Ih.
    + cbn [concat] in I. apply in_app_iff in I as [I|I]; [apply (K g b); [left; reflexivity|exact I]|].
      apply IH; [|exact I]. intros h b' col' Ih. apply K. right. exact Ih.
  - exists (report_text (snd (load_generic l)) cols), cols, slots. split.
    { unfold generic_report. subst groups. destruct (load_generic l) as [sets systems]. cbn [fst snd] in *. rewrite E. reflexivity. }
    split; [exact AL|]. rewrite <- Ln. split; [|exact F]. rewrite R, S. reflexivity.
Qed.
Print Assumptions C115_report.

(** What is aligned: for every name the last system that has it, in the order of the names. *)
Theorem C115_systems : forall A (l : list (str * str * A)),
  StronglySorted (fun x y => AsTrn_Spec.before (fst x) (fst y)) (fst (load_generic l)) /\
  forall t v, In (t, v) (fst (load_generic l)) <->
    exists a s b, l = a ++ s :: b /\ system_name s = t /\ snd s = v /\ Forall (fun x => system_name x <> t) b.
Proof.
  intros A l. destruct (load_all l) as (S & _ & I). split; [|exact I].
  clear I. induction S as [|x m H IH F]; [constructor|]. constructor; [exact IH|]. eapply Forall_impl; [|exact F]. intros y [P Q]. apply AsTrn_Proofs.leb_before; assumption.
Qed.
Print Assumptions C115_systems.
(** Two systems of one name are both listed in the report, but only the last one is aligned. *)
Theorem C115_same_title_refuted : forall A (f1 f2 t : str) (v1 v2 : A), t <> [] ->
  load_generic [(f1, t, v1); (f2, t, v2)] = ([(t, v2)], [(t, f1); (t, f2)]).
Proof.
  intros A f1 f2 t v1 v2 H. destruct t as [|b t]; [contradiction|]. unfold load_generic. cbn [fold_left load_step title_of fst snd map_put app].
  destruct (same_spec (b :: t) (b :: t)); [reflexivity|contradiction].
Qed.
Print Assumptions C115_same_title_refuted.

(** Without references no group is too crowded: the upper limit of overlapping speakers changes nothing. *)
Theorem C115_maximum : forall A c m (segmenter : list (str * A) -> list group) align l,
  (forall g, In g (segmenter (fst (load_generic l))) -> no_refs g) ->
  generic_report (with_max c m) segmenter align l = generic_report c segmenter align l.
Proof.
  intros A c m segmenter align l H. unfold generic_report. destruct (load_generic l) as [sets systems]. cbn [fst] in H.
  assert (E : align_generic (with_max c m) align (segmenter sets) = align_generic c align (segmenter sets)); [|rewrite E; reflexivity].
  induction (segmenter sets) as [|g r IH]; [reflexivity|]. cbn [align_generic]. rewrite (decide_max c m g) by (apply H; left; reflexivity).
  rewrite IH by (intros h I; apply H; right; exact I). reflexivity.
Qed.
Print Assumptions C115_maximum.
(** With a lower limit nothing is aligned at all. *)
Theorem C115_minimum_refuted : forall A c (segmenter : list (str * A) -> list group) align l,
  (forall g, In g (segmenter (fst (load_generic l))) -> no_refs g) ->
  (exists n, cells_of_gb (max_gb c) = Ok n) -> (0 < min_speakers c < 4294967296)%Z ->
  generic_report c segmenter align l = Ok (report_text (snd (load_generic l)) []).
Proof.
  intros A c segmenter align l H M P. unfold generic_report. destruct (load_generic l) as [sets systems]. cbn [fst snd] in *.
  assert (E : align_generic c align (segmenter sets) = Ok []); [|rewrite E; reflexivity].
  induction (segmenter sets) as [|g r IH]; [reflexivity|]. cbn [align_generic].
  rewrite (decide_min c g); [cbn [rbind]; apply IH; intros h I; apply H; right; exact I|apply H; left; reflexivity| |exact M].
  unfold to_uint. rewrite Z.mod_small by lia. lia.
Qed.
Print Assumptions C115_minimum_refuted.

(** The groups of the segmenter: a system that says nothing in a group has no place in its columns, and one
    with two speakers at a time has two. *)
Definition sg (id : nat) (a b : Z) : Segm_Model.rseg := {| Segm_Model.r_id := id; Segm_Model.r_src := B "f"; Segm_Model.r_ch := B "1"; Segm_Model.r_start := a; Segm_Model.r_end := b |}.
Theorem C115_dimensions_refuted :
  (exists g1 g2 st, Segm_Model.segment_generic Segm_Model.new_segmenter [[sg 1 0 10]; [sg 2 0 10; sg 3 20 30]] = Ok ([g1; g2], st) /\
     Segm_Model.gp_hyps g1 = [[sg 1 0 10]; [sg 2 0 10]] /\ Segm_Model.gp_hyps g2 = [[sg 3 20 30]]) /\
  (exists g st, Segm_Model.segment_generic Segm_Model.new_segmenter [[sg 1 0 10]; [sg 2 5 15]] = Ok ([g], st) /\
     Segm_Model.gp_hyps g = [[sg 1 0 10]; [sg 2 5 15]]).
Proof.
  split.
  - do 3 eexists. split; [vm_compute; reflexivity|]. split; reflexivity.
  - do 2 eexists. split; [vm_compute; reflexivity|]. reflexivity.
Qed.
Print Assumptions C115_dimensions_refuted.
Definition spoken (w title : string) : tok :=
  {| k_text := B w; k_t1 := 1500; k_t2 := 2250; k_conf := Some 875000%Z; k_spkr := B "s1"; k_title := B title; k_file := B "f"; k_chan := B "1" |}.
(** So the first word of a column can be of the second system. *)
Theorem C115_position_refuted : exists slots s w,
  read_report (report_text [(B "a", B "a.ctm"); (B "b", B "b.ctm")] [[[Some (spoken "hello" "b")]]]) = Some ([(B "a", B "a.ctm"); (B "b", B "b.ctm")], slots) /\
  slots = [s] /\ s_words s = [w; nothing] /\ w_input w = Some (B "b").
Proof. do 3 eexists. split; [vm_compute; reflexivity|]. split; [reflexivity|]. split; reflexivity. Qed.
Print Assumptions C115_position_refuted.

(** Words are not escaped: with an ampersand in one word the report is no XML. *)
Theorem C115_ampersand_refuted : forall systems l c t, In c (concat l) -> In (Some t) c -> In 38%N (k_text t) -> document (report_text systems l) = None.
Proof. exact amp_document. Qed.
Print Assumptions C115_ampersand_refuted.

(** Where the report goes: to stdout if that is one of the outputs, otherwise to a file in the directory. *)
Theorem C115_place : forall outputs outdir opens,
  (In (B "stdout") outputs -> generate (where_to outputs) outdir opens = ToStdout) /\
  (~ In (B "stdout") outputs ->
     let name := match outdir with [] => B "generic-report.xml" | _ => outdir ++ B "/generic-report.xml" end in
     (opens name = true -> generate (where_to outputs) outdir opens = ToFile name) /\
     (opens name = false -> generate (where_to outputs) outdir opens = Lost)).
Proof.
  intros outputs outdir opens. unfold where_to.
  destruct (existsb (fun o => Scores_Model.same o (B "stdout")) outputs) eqn:E.
  - split; [intros _; reflexivity|]. intros H. exfalso. apply H. apply existsb_exists in E as (o & I & S). destruct (same_spec o (B "stdout")) as [->|]; [exact I|discriminate].
  - split.
    + intros I. exfalso. assert (existsb (fun o => Scores_Model.same o (B "stdout")) outputs = true); [|congruence].
      apply existsb_exists. exists (B "stdout"). split; [exact I|]. destruct (same_spec (B "stdout") (B "stdout")); [reflexivity|contradiction].
    + intros _. cbv zeta. unfold generate. change (file_name outdir) with (match outdir with [] => B "generic-report.xml" | _ => outdir ++ B "/generic-report.xml" end).
      split; intros H; rewrite H; reflexivity.
Qed.
Print Assumptions C115_place.
(** "the output will be redirected in the stdout to avoid any lost" *)
Theorem C115_redirected_refuted : ~ forall outputs outdir opens, opens (file_name outdir) = false -> generate (where_to outputs) outdir opens = ToStdout.
Proof. intros H. specialize (H [] [] (fun _ => false) eq_refl). discriminate. Qed.
Print Assumptions C115_redirected_refuted.

(** ** A run *)
Definition plain_config : config :=
  {| max_speakers := 4; min_speakers := 0; only_group := None; max_gb := 2 # 1; difficulty_gb := None; min_difficulty_gb := None; compression := false; force_compression := false |}.
Definition two_hyps (id : Z) : group :=
  {| gid := id; refs := []; hyps := [[{| excluded := false; ntok := 1; sbegin := 1500; send := 2250 |}]; [{| excluded := false; ntok := 2; sbegin := 1500; send := 2250 |}]] |}.
Definition a_segmenter (sets : list (str * unit)) : list group := [two_hyps 1; two_hyps 2].
Definition an_aligner (g : group) (b : bool) : list column :=
  if (gid g =? 1)%Z then [[Some (spoken "hello" "a"); Some (spoken "hallo" "b.ctm")]; [None; Some (spoken "x" "b.ctm")]] else [[None; None]].
Definition two_systems : list (str * str * unit) := [(B "a.ctm", B "a", tt); (B "b.ctm", [], tt)].
Ltac vok := repeat (apply Forall_cons; [repeat split; vm_compute; try discriminate|]); apply Forall_nil.
Example run_case :
  let groups := a_segmenter (fst (load_generic two_systems)) in
  (forall g, In g groups -> exists o, decide plain_config g = Ok o) /\
  (forall g b, In g groups -> decide plain_config g = Ok (Aligned b) -> (min_time g < max_time g)%Z) /\
  Forall (fun s => value_ok (system_name s) /\ value_ok (system_file s)) two_systems /\
  (forall g b col, In g groups -> In col (an_aligner g b) -> column_ok col) /\
  (forall g, In g groups -> no_refs g) /\
  exists t slots, generic_report plain_config a_segmenter an_aligner two_systems = Ok t /\
    read_report t = Some ([(B "a", B "a.ctm"); (B "b.ctm", B "b.ctm")], slots) /\ length slots = 3 /\
    nth_error slots 0 = Some {| s_file := Some (B "f"); s_chan := Some (B "1");
      s_words := [{| w_bt := Some 1500%Z; w_et := Some 2250%Z; w_conf := Some 875000%Z; w_spkr := Some (B "s1"); w_input := Some (B "a"); w_text := B "hello" |};
                  {| w_bt := Some 1500%Z; w_et := Some 2250%Z; w_conf := Some 875000%Z; w_spkr := Some (B "s1"); w_input := Some (B "b.ctm"); w_text := B "hallo" |}] |} /\
    nth_error slots 2 = Some {| s_file := None; s_chan := None; s_words := [nothing; nothing] |}.
Proof.
  cbv zeta. split. { intros g [<-|[<-|[]]]; eexists; vm_compute; reflexivity. }
  split. { intros g b [<-|[<-|[]]] _; vm_compute; reflexivity. }
  split. { repeat (apply Forall_cons; [split; vok|]); apply Forall_nil. }
  split.
  { intros g b col Ig Ic t It. assert (H : In t [spoken "hello" "a"; spoken "hallo" "b.ctm"; spoken "x" "b.ctm"]).
    { destruct Ig as [<-|[<-|[]]]; cbn in Ic; repeat (destruct Ic as [<-|Ic]; [cbn in It; repeat (destruct It as [It|It]; [try discriminate; injection It as <-; cbn; tauto|]); destruct It|]); destruct Ic. }
    repeat (destruct H as [<-|H]; [repeat split; vok|]). destruct H. }
  split. { intros g [<-|[<-|[]]]; reflexivity. }
  do 2 eexists. split; [vm_compute; reflexivity|]. split; [vm_compute; reflexivity|]. split; [reflexivity|]. split; vm_compute; reflexivity.
Qed.
