(** Theorems about the alignment of two time marked files. *)
From Coq Require Import String List NArith ZArith Arith Bool Lia Sorted.
From Verif Require Import Base Store_Model Chan_Model Chop_Model Chop_Spec Chop_Proofs1 Chop_Proofs2 Chop_Proofs3.
Import ListNotations.
Local Open Scope Z_scope.

(** Every time marked file is a sequence of conversations with their channels, each change of the name beginning a
    new one. *)
Theorem C110_files : forall f, exists vs, file_ok f vs.
Proof.
  induction f as [|w f ([|(c, [|(t, ws) chs]) vs] & -> & F & S1)].
  - exists []. split; [reflexivity|]. split; constructor.
  - exists [(conv w, [(turn w, [w])])]. split; [reflexivity|]. split; repeat constructor; discriminate.
  - exfalso. apply Forall_inv in F. destruct F as (F & _). apply F. reflexivity.
  - pose proof (Forall_inv F) as (NE & FC & SC). cbn [fst snd] in NE, FC, SC. pose proof (Forall_inv FC) as (NW & FW). cbn [fst snd] in NW, FW.
    destruct (list_eq_dec N.eq_dec (conv w) c) as [<-|D].
    + destruct (list_eq_dec N.eq_dec (turn w) t) as [<-|D].
      * exists ((conv w, (turn w, w :: ws) :: chs) :: vs). split; [reflexivity|]. split.
        { constructor; [|eapply Forall_inv_tail, F]. split; [discriminate|]. split.
          - constructor; [|eapply Forall_inv_tail, FC]. split; [discriminate|]. constructor; [split; reflexivity|exact FW].
          - apply Sorted_inv in SC. constructor; [apply SC|]. destruct SC as (_ & SC). inversion SC; subst; constructor; cbn [fst] in *; assumption. }
        { apply Sorted_inv in S1. constructor; [apply S1|]. destruct S1 as (_ & S1). inversion S1; subst; constructor; cbn [fst] in *; assumption. }
      * exists ((conv w, (turn w, [w]) :: (t, ws) :: chs) :: vs). split; [reflexivity|]. split.
        { constructor; [|eapply Forall_inv_tail, F]. split; [discriminate|]. split.
          - constructor; [|exact FC]. split; [discriminate|]. repeat constructor.
          - constructor; [exact SC|]. constructor. exact D. }
        { apply Sorted_inv in S1. constructor; [apply S1|]. destruct S1 as (_ & S1). inversion S1; subst; constructor; cbn [fst] in *; assumption. }
    + exists ((conv w, [(turn w, [w])]) :: (c, (t, ws) :: chs) :: vs). split; [reflexivity|]. split.
      * constructor; [|exact F]. split; [discriminate|]. split; repeat constructor. discriminate.
      * constructor; [exact S1|]. constructor. exact D.
Qed.
Print Assumptions C110_files.

(** When two files of conversations with at most two channels are aligned, and none ends with a second channel of a
    single word, then they have the same conversations in the same order with as many channels, and the pieces deal out
    the words of every channel of both files, each word once and in order, numbered and named after the reference; no
    cut is after a word of an alternation of the reference, and each is in a pause of both files unless one of them has at
    most one word before it. *)
Theorem C110_words : forall ref hyp R H ps, file_ok ref R -> file_ok hyp H ->
  Forall (fun v => length (snd v) <= 2)%nat R -> Forall (fun v => length (snd v) <= 2)%nat H -> ~ lone_end R -> ~ lone_end H ->
  align_ctm_to_ctm ref hyp = Ok ps ->
  in_step R H /\ exists pss, ps = concat pss /\ Forall2 (fun x ps => match x with (c, t, a, b) => chunked c t a b 0 ps end) (channels R H) pss.
Proof.
  intros ref hyp R H ps (ER & FR & SR) (EH & FH & SH) LR LH NR NH E. unfold align_ctm_to_ctm in E.
  apply (convs_some ref hyp _ R H [] [] ps ER EH FR FH SR SH LR LH NR NH E).
Qed.
Print Assumptions C110_words.

(** They are aligned whenever the last channel has at most fifty words in both files, the first word of the reference is
    not of an alternation, and the identifiers are shorter than their buffer. *)
Theorem C110_defined : forall ref hyp R H, file_ok ref R -> file_ok hyp H -> R <> [] ->
  Forall (fun v => length (snd v) <= 2)%nat R -> Forall (fun v => length (snd v) <= 2)%nat H -> ~ lone_end R -> ~ lone_end H ->
  in_step R H -> short_end R H ->
  (forall w, nth_error ref 0 = Some w -> alternate w = false) ->
  (forall w k d, In w ref -> (k <= length ref + length hyp)%nat -> number4 k d -> (length (conv w) + length (turn w) + length d + 4 < 100)%nat) ->
  exists ps, align_ctm_to_ctm ref hyp = Ok ps.
Proof.
  intros ref hyp R H (ER & FR & SR) (EH & FH & SH) NE LR LH NR NH SS SE FA ID. unfold align_ctm_to_ctm.
  apply (convs_ends ref hyp) with (R := R) (H := H) (pr := []) (ph := []); try assumption.
  - intros w W. apply wd_nth in W. apply FA, W.
  - intros i j w W. apply wd_nth in W. intros K. destruct (utt_id_ok (conv w) (turn w) j) as (d & D & ->). destruct W as (_ & W).
    pose proof (ID w j d (nth_error_In _ _ W) K D). rewrite !app_length. cbn [length]. lia.
  - assert (length R <= length ref)%nat; [|lia]. rewrite ER. clear - FR. unfold all_words. induction R as [|v R IH]; [cbn; lia|]. cbn [flat_map length]. rewrite app_length.
    pose proof (IH (Forall_inv_tail FR)). apply Forall_inv in FR. destruct FR as (NV & FV & _). destruct (snd v) as [|a l]; [congruence|].
    apply Forall_inv in FV. destruct FV as (NA & _). cbn [flat_map]. rewrite app_length. destruct (snd a); [congruence|]. cbn [length]. lia.
Qed.
Print Assumptions C110_defined.

(** Words for the witnesses: [n] words of a second each from [t] on, with a pause of a second after each *)
Definition mw (c t : string) (b d : Z) : mword := {| the_word := {| conv := bytes c; turn := bytes t; sp := bytes "x"; t1 := b; dur := d |}; alternate := false |}.
Definition amw (c t : string) (b d : Z) : mword := {| the_word := {| conv := bytes c; turn := bytes t; sp := bytes "x"; t1 := b; dur := d |}; alternate := true |}.
Definition run (c t : string) (b : Z) (n : nat) : list mword := map (fun k => mw c t (b + 20 * Z.of_nat k) 10) (seq 0 n).

(** Words of the hypothesis that are left when the channel of the reference is used up are credited to the speaker of
    the next channel. *)
Theorem C110_speaker_refuted : exists ref hyp ps p w, align_ctm_to_ctm ref hyp = Ok ps /\ In p ps /\ In w (p_hyp p)
  /\ p_ref p = [] /\ turn w = bytes "A" /\ p_chan p = bytes "B" /\ p_spkr p = bytes "f-B".
Proof.
  exists (run "f" "A" 0 2 ++ run "f" "B" 0 2), (run "f" "A" 0 60 ++ run "f" "B" 0 2). eexists. eexists. eexists. split; [vm_compute; reflexivity|].
  split; [right; left; reflexivity|]. split; [left; reflexivity|]. vm_compute. auto.
Qed.
(** After the last channel there is no word to read: both files have the same conversation and channel. *)
Theorem C110_last_channel_refuted : exists ref hyp R H, file_ok ref R /\ file_ok hyp H /\ in_step R H /\ ref <> [] /\ hyp <> [] /\ align_ctm_to_ctm ref hyp = Undef.
Proof.
  exists (run "f" "A" 0 2), (run "f" "A" 0 60), [(bytes "f", [(bytes "A", run "f" "A" 0 2)])], [(bytes "f", [(bytes "A", run "f" "A" 0 60)])].
  split; [split; [reflexivity|split; repeat constructor; discriminate]|]. split; [split; [reflexivity|split; repeat constructor; discriminate]|].
  split; [repeat constructor|]. split; [discriminate|]. split; [discriminate|]. vm_compute. reflexivity.
Qed.
(** A second channel of a single word at the end of the file is not aligned. *)
Theorem C110_single_word_channel_refuted : exists ref hyp ps w, align_ctm_to_ctm ref hyp = Ok ps /\ In w ref /\ ~ exists p, In p ps /\ In w (p_ref p).
Proof.
  exists (run "f" "A" 0 1 ++ run "f" "B" 0 1), (run "f" "A" 0 1 ++ run "f" "B" 0 1). eexists. exists (mw "f" "B" 0 10). split; [vm_compute; reflexivity|].
  split; [right; left; reflexivity|]. intros (p & [<-|[]] & [E|[]]). discriminate E.
Qed.
(** A third channel is dropped, even if only one of the files has it. *)
Theorem C110_third_channel_refuted : exists ref hyp ps w, align_ctm_to_ctm ref hyp = Ok ps /\ In w ref /\ ~ (exists p, In p ps /\ In w (p_ref p)) /\ (forall v, In v hyp -> turn v <> turn w).
Proof.
  exists (run "f" "A" 0 1 ++ run "f" "B" 0 2 ++ run "f" "C" 0 1), (run "f" "A" 0 1 ++ run "f" "B" 0 2). eexists. exists (mw "f" "C" 0 10). split; [vm_compute; reflexivity|].
  split; [right; right; right; left; reflexivity|]. split.
  - intros (p & [<-|[<-|[]]] & I); cbn [p_ref In] in I; decompose [or] I; (discriminate || contradiction).
  - intros v I. cbn in I. decompose [or] I; subst; (discriminate || contradiction).
Qed.
(** The names of the channels are not compared. *)
Theorem C110_channel_names_refuted : exists ref hyp ps p w v, align_ctm_to_ctm ref hyp = Ok ps /\ In p ps /\ In w (p_ref p) /\ In v (p_hyp p) /\ turn w = bytes "A" /\ turn v = bytes "B".
Proof.
  exists (run "f" "A" 0 2), (run "f" "B" 0 2). eexists. eexists. exists (mw "f" "A" 0 10), (mw "f" "B" 0 10). split; [vm_compute; reflexivity|]. split; [left; reflexivity|].
  repeat split; left; reflexivity.
Qed.
(** A reference whose first words are all of alternations is read before its start. *)
Theorem C110_first_alternate_refuted : exists ref hyp R H, file_ok ref R /\ file_ok hyp H /\ in_step R H /\ Forall (fun w => alternate w = true) ref /\ align_ctm_to_ctm ref hyp = Undef.
Proof.
  exists (repeat (amw "f" "A" 0 1) 51), (run "f" "A" 0 2), [(bytes "f", [(bytes "A", repeat (amw "f" "A" 0 1) 51)])], [(bytes "f", [(bytes "A", run "f" "A" 0 2)])].
  split; [split; [reflexivity|split; repeat constructor; discriminate]|]. split; [split; [reflexivity|split; repeat constructor; discriminate]|].
  split; [repeat constructor|]. split; [repeat constructor|]. vm_compute. reflexivity.
Qed.
(** A file that ends too early is reported, unless a single word is left in the other one. *)
Theorem C110_early_end_refuted : exists f x, align_ctm_to_ctm (f ++ [x]) f = Undef /\ align_ctm_to_ctm f (f ++ [x]) = Undef /\ align_ctm_to_ctm (f ++ [x; x]) f = Exit /\ align_ctm_to_ctm f (f ++ [x; x]) = Exit.
Proof. exists (run "f" "A" 0 2), (mw "g" "A" 0 10). vm_compute. auto. Qed.
(** A cut can be within an alternation of the hypothesis. *)
Theorem C110_hyp_alternation_refuted : exists ref hyp ps p q w v, align_ctm_to_ctm ref hyp = Ok ps /\ ps = [p; q] /\ last (p_hyp p) v = w /\ alternate w = true
  /\ hd w (p_hyp q) = v /\ alternate v = true.
Proof.
  exists (run "f" "A" 0 70), (run "f" "A" 0 40 ++ map (fun k => amw "f" "A" (800 + 5 * Z.of_nat k) 1) (seq 0 20)). do 5 eexists.
  split; [vm_compute; reflexivity|]. split; [reflexivity|]. vm_compute. auto.
Qed.
(** An identifier longer than its buffer is written beyond it. *)
Theorem C110_long_name_refuted : exists f, length f = 1%nat /\ align_ctm_to_ctm f f = Undef.
Proof.
  exists [{| the_word := {| conv := repeat 102%N 100; turn := bytes "A"; sp := bytes "x"; t1 := 0; dur := 1 |}; alternate := false |}]. vm_compute. auto.
Qed.
Print Assumptions C110_speaker_refuted.
Print Assumptions C110_last_channel_refuted.
Print Assumptions C110_single_word_channel_refuted.
Print Assumptions C110_third_channel_refuted.
Print Assumptions C110_channel_names_refuted.
Print Assumptions C110_first_alternate_refuted.
Print Assumptions C110_early_end_refuted.
Print Assumptions C110_hyp_alternation_refuted.
Print Assumptions C110_long_name_refuted.

(** Two conversations, the first of two channels; the channels of eighty words are cut. *)
Example words_case : exists ref hyp R H ps, file_ok ref R /\ file_ok hyp H
  /\ Forall (fun v => length (snd v) <= 2)%nat R /\ Forall (fun v => length (snd v) <= 2)%nat H /\ ~ lone_end R /\ ~ lone_end H
  /\ align_ctm_to_ctm ref hyp = Ok ps /\ length ps = 4%nat /\ length (channels R H) = 3%nat /\ short_end R H
  /\ (forall w, nth_error ref 0 = Some w -> alternate w = false)
  /\ map (fun p => length (p_ref p)) ps = [51; 3; 2; 3]%nat /\ map (fun p => length (p_hyp p)) ps = [51; 2; 2; 2]%nat.
Proof.
  exists (run "f" "A" 0 54 ++ run "f" "B" 0 2 ++ run "g" "A" 0 3), (run "f" "A" 3 53 ++ run "f" "B" 0 2 ++ run "g" "A" 0 2).
  exists [(bytes "f", [(bytes "A", run "f" "A" 0 54); (bytes "B", run "f" "B" 0 2)]); (bytes "g", [(bytes "A", run "g" "A" 0 3)])].
  exists [(bytes "f", [(bytes "A", run "f" "A" 3 53); (bytes "B", run "f" "B" 0 2)]); (bytes "g", [(bytes "A", run "g" "A" 0 2)])].
  eexists.
  split; [split; [reflexivity|split; repeat constructor; discriminate]|]. split; [split; [reflexivity|split; repeat constructor; discriminate]|].
  split; [repeat constructor|]. split; [repeat constructor|].
  split; [intros ([|? [|? [|? us]]] & c & a & t & w & E); discriminate E|]. split; [intros ([|? [|? [|? us]]] & c & a & t & w & E); discriminate E|].
  split; [vm_compute; reflexivity|]. split; [reflexivity|]. split; [reflexivity|]. split; [|split; [|vm_compute; auto]].
  - intros pre c t a b E. unfold channels in E. cbn [combine flat_map map app fst snd] in E.
    destruct pre as [|? [|? [|? [|]]]]; try discriminate E. injection E as _ _ _ _ <- <-. cbn. lia.
  - intros w E. injection E as <-. reflexivity.
Qed.
(** Short names in short files satisfy the condition on the identifiers. *)
Example ids_case : exists ref hyp : list mword, length ref = 54%nat /\
  forall (w : mword) k d, In w ref -> (k <= length ref + length hyp)%nat -> number4 k d -> (length (conv w) + length (turn w) + length d + 4 < 100)%nat.
Proof.
  exists (run "f" "A" 0 54), (run "f" "A" 3 53). split; [reflexivity|]. intros w k d I K D. rewrite (number4_short k d D ltac:(vm_compute in K; lia)).
  unfold run in I. apply in_map_iff in I as (j & <- & _). cbn. lia.
Qed.
