(** Proofs about the command line of asclite: words that are no options, and missing values. *)
From Coq Require Import String.
From Coq Require Import List ZArith NArith Arith Bool Lia.
From Verif Require Store_Model Store_Proofs.
From Verif Require Import Base Sgml_Model Args_Model Args_Spec Args_Proofs1 Args_Proofs2 Args_Proofs3 Args_Proofs4 Args_Proofs5.
Import ListNotations.
Local Open Scope list_scope.

Lemma hyp_title f fm t rest s : no_dash t ->
  step (B "-h") (f :: hname fm :: t :: rest) s = (set_hyps (hyps s ++ [{| i_file := f; i_format := hname fm; i_title := t |}]) s, rest).
Proof.
  intros U. apply no_dash_false in U. change (step (B "-h") (f :: hname fm :: t :: rest) s) with (hyp_arg (f :: hname fm :: t :: rest) s). unfold hyp_arg.
  destruct fm; [change (same (hname Hctm) (B "ctm")) with true | change (same (hname Hrttm) (B "ctm")) with false; change (same (hname Hrttm) (B "rttm")) with true
       | change (same (hname Htrn) (B "ctm")) with false; change (same (hname Htrn) (B "rttm")) with false; change (same (hname Htrn) (B "trn")) with true];
      cbv beta iota; rewrite U; reflexivity.
Qed.
Lemma step_complete l s o rest : inv l s -> usable o -> complete o ->
  exists a t s', words o = a :: t /\ step a (t ++ rest) s = (s', rest) /\ inv (l ++ [o]) s'.
Proof.
  intros V U R. destruct o as [f [fm|] [t|]|f [fm|]|f [w|]|[w|]|[w|]|w|w v|n v|r]; cbn [complete] in R; try (destruct R; fail).
  - exists (B "-h"), [f; hname fm; t]. eexists. split; [reflexivity|]. split; [|apply inv_hyp; exact V]. cbn [app or_else].
    exact (hyp_title f fm t rest s (proj2 U)).
  - exists (B "-r"), [f; rname fm]. eexists. split; [reflexivity|]. split; [|apply inv_ref; exact V]. destruct fm; reflexivity.
  - exists (B "-uem"), [f; sname w]. eexists. split; [reflexivity|]. split; [|apply inv_uem; exact V]. destruct w; reflexivity.
  - exists (B "-spkrautooverlap"), [sname w]. eexists. split; [reflexivity|]. split; [|apply inv_self; exact V]. destruct w; reflexivity.
  - exists (B "-D"), [sname w]. eexists. split; [reflexivity|]. split; [|apply inv_optional; exact V]. destruct w; reflexivity.
  - exists (word_of_switch w), []. eexists. split; [reflexivity|]. split; [|apply (inv_flag l s w); [exact V|reflexivity]]. destruct w; reflexivity.
  - exists (word_of_setting w), [v], (set_it w v s). split; [reflexivity|]. split; [|apply inv_set; exact V]. cbn [app].
    destruct w; cbn [usable] in U.
    + exact (valued_step BUtterance SUtterance v rest s U eq_refl).
    + exact (valued_step BPrune SPrune v rest s U eq_refl).
    + exact (valued_step BWord SWord v rest s U eq_refl).
    + exact (valued_step BSpkr SSpkr v rest s U eq_refl).
    + exact (valued_step BMaxOver SMaxOver v rest s U eq_refl).
    + exact (valued_step BMinOver SMinOver v rest s U eq_refl).
    + exact (valued_step BOnly SOnly v rest s U eq_refl).
    + exact (valued_step BMemory SMemory v rest s U eq_refl).
    + exact (valued_step BMaxGb SMaxGb v rest s U eq_refl).
    + exact (valued_step BDiff SDiff v rest s U eq_refl).
    + exact (valued_step BMinDiff SMinDiff v rest s U eq_refl).
    + exact (loose_step (fun v => sets SOutDir v) v rest s U).
    + exact (loose_step (fun v => set_feedback (atoi v)) v rest s U).
    + exact (loose_step (fun v => set_width (atoi v)) v rest s U).
    + exact (threads_step v rest s (proj1 U) (proj2 U)).
  - exists (B "--set-property"), [n; v]. eexists. split; [reflexivity|]. split; [|apply (inv_property l s n v); exact V]. exact (property_step n v rest s (proj1 U) (proj2 U)).
Qed.
(** usable options before a word: the word is an option, or the last option is complete *)
Definition ended (l : list option_) (rest : list (list N)) : Prop := stops rest \/ exists l1 o, l = l1 ++ [o] /\ complete o.
Lemma loop_ended l rest : Forall usable l -> ended l rest ->
  exists s fuel, inv l s /\ loop (length (flat_map words l ++ rest)) (flat_map words l ++ rest) start = loop fuel rest s /\ length rest <= fuel.
Proof.
  intros U [T|(l1 & o & -> & C)].
  - exact (loop_more l [] start rest _ inv_start U T (le_n _)).
  - apply Forall_app in U. destruct U as [U1 U2]. inversion U2 as [|? ? U3 _]; subst. rewrite flat_map_app. cbn [flat_map]. rewrite app_nil_r, <- app_assoc.
    assert (T : stops (words o ++ rest)) by (destruct (words_dash o) as (a & t & -> & D); exact D).
    destruct (loop_more l1 [] start (words o ++ rest) _ inv_start U1 T (le_n _)) as (s & f & V & E & F). cbn [app] in V.
    destruct (step_complete l1 s o rest V U3 C) as (a & t & s' & EW & ES & V'). rewrite EW in *. cbn [app length] in *. destruct f as [|f]; [lia|].
    exists s', f. split; [exact V'|]. split; [rewrite E; cbn [loop]; rewrite (v_k _ _ V), ES; reflexivity|]. rewrite app_length in F. lia.
Qed.
Lemma bad_run2 l w rest : Forall usable l -> ended l (w :: rest) ->
  (forall s, inv l s -> exists s' after, step w rest s = (s', after) /\ ok s' = false /\ b_ s' BTimeBase = on l TimeBased /\ b_ s' BGeneric = on l Generic /\ hyps s' = hyps_of l) ->
  (on l TimeBased = true -> on l Generic = true \/ hyps_of l <> []) ->
  main (flat_map words l ++ w :: rest) = Ok Refused.
Proof.
  intros U D S T. destruct (loop_ended l (w :: rest) U D) as (s & f' & V & E & L).
  destruct (S s V) as (s' & after & ES & K & TB & GB & HB). rewrite (loop_bad f' w rest s s' after (v_k _ _ V) ES K L) in E.
  unfold main. destruct (flat_map words l ++ w :: rest) as [|a t] eqn:EW; [destruct (flat_map words l); discriminate EW|].
  rewrite E. cbn [rbind]. rewrite GB. destruct (on l Generic) eqn:G.
  - cbn [rbind]. rewrite check_generic_ok by exact K. reflexivity.
  - assert (C : exists s2, check_ref s' = Ok s2).
    { unfold check_ref. cbv zeta. set (s1 := if is_none (ref s') || is_nil (hyps s') then fail s' else s').
      assert (A : b_ s1 BTimeBase = b_ s' BTimeBase /\ hyps s1 = hyps s') by (unfold s1; destruct (_ || _); split; reflexivity). clearbody s1. destruct A as [A1 A2].
      rewrite A1, A2, HB, TB. destruct (on l TimeBased); [|eexists; reflexivity].
      destruct (hyps_of l) as [|h hs]; [|eexists; reflexivity]. destruct (T eq_refl) as [X|X]; [discriminate X|congruence]. }
    destruct C as (s2 & C). rewrite C. cbn [rbind]. rewrite (check_ref_ok s' s2 K C). reflexivity.
Qed.
Lemma classify_unknown w : ~ In w option_words -> classify w = KUnknown.
Proof.
  intros H. unfold classify.
  assert (D : forall x, In x option_words -> same w x = false).
  { intros x K. destruct (same w x) eqn:E; [|reflexivity]. apply same_iff in E. subst. contradiction. }
  unfold option_words in D. cbn [map In] in D. rewrite !D by tauto. reflexivity.
Qed.
Lemma unknown_step w rest s : ~ In w option_words -> step w rest s = (fail s, rest).
Proof. intros H. unfold step. rewrite classify_unknown by exact H. reflexivity. Qed.
Lemma inv_kept l s : inv l s -> b_ s BTimeBase = on l TimeBased /\ b_ s BGeneric = on l Generic /\ hyps s = hyps_of l.
Proof. intros V. rewrite !(v_b _ _ V). split; [reflexivity|]. split; [reflexivity|apply V]. Qed.
Lemma valued_missing x y rest s : stops rest -> b_ s x = false -> valued_arg x y rest s = (fail s, rest).
Proof. intros R K. unfold valued_arg. destruct rest as [|v r]; [rewrite K; reflexivity|]. cbn [stops] in R. rewrite R. cbn [negb]. rewrite K. reflexivity. Qed.
Lemma setting_missing l s w rest : inv l s -> given l w = false -> (w = Compression -> on l ForceCompression = false) -> stops rest ->
  (rest = [] \/ ~ In w [Directory; Level; Width; Threads]) -> step (word_of_setting w) rest s = (fail s, rest).
Proof.
  intros V G C R X. pose proof (v_b _ _ V) as VB.
  destruct w; try (destruct X as [-> |X]; [reflexivity|exfalso; apply X; cbn; tauto]);
  [ change (valued_arg BUtterance SUtterance rest s = (fail s, rest)) | change (valued_arg BPrune SPrune rest s = (fail s, rest))
  | change (valued_arg BWord SWord rest s = (fail s, rest)) | change (valued_arg BSpkr SSpkr rest s = (fail s, rest)) | change (valued_arg BMaxOver SMaxOver rest s = (fail s, rest))
  | change (valued_arg BMinOver SMinOver rest s = (fail s, rest)) | change (valued_arg BOnly SOnly rest s = (fail s, rest)) | change (valued_arg BMemory SMemory rest s = (fail s, rest))
  | change (valued_arg BMaxGb SMaxGb rest s = (fail s, rest)) | change (valued_arg BDiff SDiff rest s = (fail s, rest)) | change (valued_arg BMinDiff SMinDiff rest s = (fail s, rest))];
  (apply valued_missing; [exact R|]); rewrite VB; cbn [bspec]; rewrite ?G; try reflexivity. cbn [orb]. apply C. reflexivity.
Qed.
