(** Proofs about the command line of asclite: the table of properties and the whole run. *)
From Coq Require Import String.
From Coq Require Import List ZArith NArith Arith Bool Lia.
From Verif Require Store_Model Store_Proofs.
From Verif Require Import Base Sgml_Model Args_Model Args_Spec Args_Proofs1 Args_Proofs2 Args_Proofs3 Args_Proofs4.
Import ListNotations.
Local Open Scope list_scope.

Definition or_empty (o : option (list N)) : list N := match o with Some v => v | None => [] end.
(** the same with the values as arguments *)
Definition own_of (v1 v2 v3 v4 v5 v6 v7 v8 v9 v10 v11 v12 v13 v14 : list N) (b1 b2 b3 b4 b5 b6 b7 b8 b9 b10 b11 b12 b13 b14 b15 : bool) (us : option side) (uo : option (list N * side)) (ss : option side) (tr rt : bool) : list (list N * list N) :=
  [(B "inputparser.trn.uid", v3); (B "align.case_sensitive", truth (b1)); (B "align.fragment_are_correct", truth (b2));
   (B "align.timepruneoptimization", truth (b3)); (B "align.timepruneoptimizationthreshold", v4);
   (B "align.timewordoptimization", truth (b4)); (B "align.timewordoptimizationthreshold", v5);
   (B "align.speakeroptimization", truth (b5)); (B "align.memorycompression", truth (b6));
   (B "align.forcememorycompression", truth (b7)); (B "align.memorycompressionblock", v6);
   (B "align.adaptivecost", truth (b8)); (B "align.wordaligncost", truth (b9)); (B "align.genericmethod", truth (b10));
   (B "align.typecost", if b11 then B "2" else B "1"); (B "threads.number", v7);
   (B "recording.maxspeakeroverlaping", v8); (B "recording.minspeakeroverlaping", v9);
   (B "recording.bonlysg", truth (b12)); (B "recording.onlysg", v10); (B "recording.maxnbofgb", v11);
   (B "recording.difficultygb", truth (b13)); (B "recording.nbrdifficultygb", v12);
   (B "recording.mindifficultygb", truth (b14)); (B "recording.minnbrdifficultygb", v13);
   (B "recording.maxoverlapinghypothesis", B "1")]
  ++ (if rt then [(B "recording.maxoverlapinghypothesis", v8)] else [])
  ++ [(B "align.optionally", v2); (B "general.feedback.level", v1); (B "report.outputdir", v14);
      (B "align.type", B "lev"); (B "score.type", B "stt"); (B "filter.uem.isg", truth (negb (b15) && negb (b10)))]
  ++ match ss with Some w => [(B "filter.spkrautooverlap", B "true"); (B "filter.spkrautooverlap.option", sname w)] | None => [] end
  ++ [(B "filter.spkrmap", B "false")]
  ++ (if tr then [(B "filter.uem.isg", B "false")]
      else match us, uo with Some w, Some (f, _) => [(B "filter.uem", B "true"); (B "filter.uem.option", sname w); (B "filter.uem.arg_uemfilename", f)]
           | _, _ => [(B "filter.uem", B "false")] end).
Definition table_of (v1 v2 v3 v4 v5 v6 v7 v8 v9 v10 v11 v12 v13 v14 : list N) (b1 b2 b3 b4 b5 b6 b7 b8 b9 b10 b11 b12 b13 b14 b15 : bool) (us : option side) (uo : option (list N * side)) (ss : option side) (tr rt : bool) : list (string * list N) :=
  [("inputparser.trn.uid"%string, v3);
   ("align.case_sensitive"%string, truth (b1));
   ("align.fragment_are_correct"%string, truth (b2));
   ("align.timepruneoptimization"%string, truth (b3));
   ("align.timepruneoptimizationthreshold"%string, v4);
   ("align.timewordoptimization"%string, truth (b4));
   ("align.timewordoptimizationthreshold"%string, v5);
   ("align.speakeroptimization"%string, truth (b5));
   ("align.memorycompression"%string, truth (b6));
   ("align.forcememorycompression"%string, truth (b7));
   ("align.memorycompressionblock"%string, v6);
   ("align.adaptivecost"%string, truth (b8));
   ("align.wordaligncost"%string, truth (b9));
   ("align.genericmethod"%string, truth (b10));
   ("align.typecost"%string, if b11 then B "2" else B "1");
   ("threads.number"%string, v7);
   ("recording.maxspeakeroverlaping"%string, v8);
   ("recording.minspeakeroverlaping"%string, v9);
   ("recording.bonlysg"%string, truth (b12));
   ("recording.onlysg"%string, v10);
   ("recording.maxnbofgb"%string, v11);
   ("recording.difficultygb"%string, truth (b13));
   ("recording.nbrdifficultygb"%string, v12);
   ("recording.mindifficultygb"%string, truth (b14));
   ("recording.minnbrdifficultygb"%string, v13);
   ("recording.maxoverlapinghypothesis"%string, if rt then v8 else B "1");
   ("align.optionally"%string, v2);
   ("general.feedback.level"%string, v1);
   ("report.outputdir"%string, v14);
   ("align.type"%string, B "lev");
   ("score.type"%string, B "stt");
   ("filter.uem.isg"%string, truth (negb (b15) && negb (b10) && negb (tr)));
   ("filter.spkrautooverlap"%string, match ss with Some _ => B "true" | None => [] end);
   ("filter.spkrautooverlap.option"%string, match ss with Some s => sname s | None => [] end);
   ("filter.spkrmap"%string, B "false");
   ("filter.uem"%string, if tr then [] else truth (some (us)));
   ("filter.uem.option"%string, if tr then [] else match us with Some s => sname s | None => [] end);
   ("filter.uem.arg_uemfilename"%string, if tr then [] else match us, uo with Some _, Some (f, _) => f | _, _ => [] end)].
Definition known_ok (m : string) : Prop := forall (v1 v2 v3 v4 v5 v6 v7 v8 v9 v10 v11 v12 v13 v14 : list N) (b1 b2 b3 b4 b5 b6 b7 b8 b9 b10 b11 b12 b13 b14 b15 : bool) (us : option side) (uo : option (list N * side)) (ss : option side) (tr rt : bool), (us = None \/ exists u f w, us = Some u /\ uo = Some (f, w)) ->
  last_as (own_of v1 v2 v3 v4 v5 v6 v7 v8 v9 v10 v11 v12 v13 v14 b1 b2 b3 b4 b5 b6 b7 b8 b9 b10 b11 b12 b13 b14 b15 us uo ss tr rt) (B m) = Some (lookup (table_of v1 v2 v3 v4 v5 v6 v7 v8 v9 v10 v11 v12 v13 v14 b1 b2 b3 b4 b5 b6 b7 b8 b9 b10 b11 b12 b13 b14 b15 us uo ss tr rt) (B m))
  \/ (last_as (own_of v1 v2 v3 v4 v5 v6 v7 v8 v9 v10 v11 v12 v13 v14 b1 b2 b3 b4 b5 b6 b7 b8 b9 b10 b11 b12 b13 b14 b15 us uo ss tr rt) (B m) = None /\ lookup (table_of v1 v2 v3 v4 v5 v6 v7 v8 v9 v10 v11 v12 v13 v14 b1 b2 b3 b4 b5 b6 b7 b8 b9 b10 b11 b12 b13 b14 b15 us uo ss tr rt) (B m) = [] /\ Store_Model.massoc (Store_Model.p_map Store_Model.initialize) (B m) = None).
Lemma own_known_of : Forall known_ok names.
Proof.
  unfold names.
  repeat (apply Forall_cons; [intros v1 v2 v3 v4 v5 v6 v7 v8 v9 v10 v11 v12 v13 v14 b1 b2 b3 b4 b5 b6 b7 b8 b9 b10 b11 b12 b13 b14 b15 us uo ss tr rt [-> | (u & f & w & -> & ->)]; destruct rt, tr, ss; first [left; vm_compute; reflexivity | left; destruct b10, b15; vm_compute; reflexivity | right; vm_compute; repeat split]|]).
  apply Forall_nil.
Qed.
Lemma own_known l m : In m names -> last_as (own l) (B m) = Some (lookup (table l) (B m)) \/ (last_as (own l) (B m) = None /\ lookup (table l) (B m) = [] /\ Store_Model.massoc (Store_Model.p_map Store_Model.initialize) (B m) = None).
Proof.
  intros K. apply (proj1 (Forall_forall _ _) own_known_of m K (int_text (atoi (value l Level (B "4")))) (optional_word l) (value l Utterance (B "spu_id")) (value l Prune (B "0")) (value l WordTime (B "0")) (value l Compression (B "256")) (value l Threads (B "1")) (value l OverlapLimit (B "4")) (value l OverlapMin (B "0")) (value l OnlyGroup []) (value l MemoryLimit (B "1")) (value l DifficultyLimit (B "16")) (value l DifficultyMin (B "0")) (value l Directory []) (on l CaseSensitive) (on l FragmentsCorrect) (given l Prune) (given l WordTime) (given l SpeakerFile) (given l Compression || on l ForceCompression) (on l ForceCompression) (on l Adaptive) (on l WordAlign) (generic l) (on l TimeBased) (given l OnlyGroup) (given l DifficultyLimit) (given l DifficultyMin) (on l NoGaps) (uem_side l) (uem_of l) (self_side l) (trn_ref l) (first_rttm l)).
  destruct (uem_side l) as [u|] eqn:E; [right|left; reflexivity]. destruct (uem_side_some l u E) as (f & w & ->). exists u, f, w. split; reflexivity.
Qed.
Lemma initial_names k : ~ In k (map B names) -> Store_Model.massoc (Store_Model.p_map Store_Model.initialize) k = None.
Proof.
  intros H. unfold Store_Model.initialize, Store_Model.set_properties. cbv zeta. cbn [Store_Model.p_map]. rewrite !Store_Proofs.massoc_add_default. cbn [Store_Model.massoc].
  assert (D : forall n, In n names -> Store_Model.str_eqb (Store_Model.bytes n) k = false).
  { intros n K. apply Store_Proofs.str_eqb_neq. intros <-. apply H. exact (in_map B _ _ K). }
  rewrite !D; try reflexivity; unfold names; repeat (first [left; reflexivity|right]).
Qed.
Lemma own_lookup l k : or_empty (orr (last_as (own l) k) (Store_Model.massoc (Store_Model.p_map Store_Model.initialize) k)) = lookup (table l) k.
Proof.
  destruct (in_dec (list_eq_dec N.eq_dec) k (map B names)) as [K|K].
  - apply in_map_iff in K. destruct K as (m & <- & M). destruct (own_known l m M) as [-> | (-> & -> & ->)]; reflexivity.
  - rewrite initial_names by exact K. rewrite last_as_none, lookup_none; [reflexivity|..].
    + rewrite table_names. intros n M E. apply K. apply in_map_iff. exists n. split; [exact E|exact M].
    + intros n M E. subst n. destruct (own_names l k M) as (m & A & ->). apply K. apply in_map. exact A.
Qed.
Lemma fin_meets l s : fin l s -> meets l (config_of s).
Proof.
  intros F. unfold meets, config_of. cbn [c_level c_props c_ref c_hyps c_uem c_spkr c_filters c_outputs].
  split; [apply F|]. split; [rewrite (f_b _ _ F BGeneric) by discriminate; rewrite (f_r _ _ F); reflexivity|]. split; [apply F|].
  split; [rewrite (f_s _ _ F SUemFile) by discriminate; reflexivity|]. split; [rewrite (f_s _ _ F SSpkr) by discriminate; reflexivity|].
  split; [|split; [apply F|]].
  - unfold filters. rewrite (f_auto _ _ F), (f_r _ _ F), ref_trn, (f_uem _ _ F), (f_isg _ _ F). destruct (trn_ref l); reflexivity.
  - intros k. rewrite get_all, (own_assignments l s F), last_as_app, last_as_massoc by apply F. rewrite (f_p _ _ F). unfold wanted. rewrite <- own_lookup.
    destruct (property_of l k); reflexivity.
Qed.

(** ** The whole run *)
Lemma words_nil l : flat_map words l = [] -> l = [].
Proof. destruct l as [|o l]; [reflexivity|]. cbn [flat_map]. destruct (words_dash o) as (a & t & -> & _). discriminate. Qed.
Lemma run_ok l : l <> [] -> Forall usable l -> (on l TimeBased = true -> on l Generic = true \/ hyps_of l <> []) ->
  exists s, fin l s /\ (ok s = true <-> acceptable l) /\ main (flat_map words l) = Ok (if ok s then Launch (config_of s) else Refused).
Proof.
  intros H U T. destruct (loop_more l [] start [] (length (flat_map words l)) inv_start U I ltac:(rewrite app_nil_r; apply le_n)) as (s & f' & V & E & _).
  cbn [app] in V. rewrite app_nil_r in E. unfold main. destruct (flat_map words l) as [|a r] eqn:EW; [apply words_nil in EW; contradiction|].
  rewrite E. assert (L : loop f' [] s = Ok s) by (destruct f'; reflexivity). rewrite L. cbn [rbind]. rewrite (v_b _ _ V). cbn [bspec]. change (on l Generic) with (generic l).
  destruct (generic l) eqn:G.
  - cbn [rbind]. destruct (generic_checks l s V G) as [F K]. exists (check_generic s). split; [exact F|]. split; [exact K|reflexivity].
  - destruct (ref_checks l s V G) as (s' & EC & F & K); [intros K; destruct (T K) as [D|D]; [change (on l Generic) with (generic l) in D; congruence|exact D]|].
    rewrite EC. cbn [rbind]. exists s'. split; [exact F|]. split; [exact K|reflexivity].
Qed.
(** ** Refusals *)
Local Open Scope res_scope.
Lemma loop_bad f w rest s s' after : ok s = true -> step w rest s = (s', after) -> ok s' = false -> length (w :: rest) <= f -> loop f (w :: rest) s = Ok s'.
Proof.
  intros K E D L. cbn [length] in L. destruct f as [|f]; [lia|]. cbn [loop]. rewrite K, E. destruct f, after; cbn [loop]; rewrite ?D; reflexivity.
Qed.
Lemma check_generic_ok s : ok s = false -> ok (check_generic s) = false.
Proof.
  intros K. unfold check_generic. cbv zeta.
  assert (K1 : ok (if is_nil (hyps s) then fail s else s) = false) by (destruct (is_nil (hyps s)); [reflexivity|exact K]).
  revert K1. generalize (if is_nil (hyps s) then fail s else s). intros s1 K1.
  set (s2 := set_outs _ (setb BIsg false s1)). assert (K2 : ok s2 = false) by exact K1. clearbody s2.
  set (s3 := if b_ s2 BAuto then _ else s2). assert (K3 : ok s3 = false) by (unfold s3; destruct (b_ s2 BAuto); [destruct (_ || _)|]; exact K2). clearbody s3.
  set (s4 := if b_ s3 BUem then _ else s3). assert (K4 : ok s4 = false) by (unfold s4; destruct (b_ s3 BUem); [destruct (_ || _)|]; exact K3). clearbody s4.
  destruct (_ || _); exact K4.
Qed.
Lemma check_ref_ok s s' : ok s = false -> check_ref s = Ok s' -> ok s' = false.
Proof.
  intros K. unfold check_ref. cbv zeta.
  set (s1 := if is_none (ref s) || is_nil (hyps s) then fail s else s). assert (K1 : ok s1 = false) by (unfold s1; destruct (_ || _); [reflexivity|exact K]). clearbody s1.
  assert (A : forall s2, (if b_ s1 BTimeBase then match hyps s1 with [] => Undef | h :: _ => Ok (if same (i_format h) (B "trn") || same (format_of (ref s1)) (B "trn") || same (format_of (ref s1)) (B "stm") then fail s1 else s1) end else Ok s1) = Ok s2 -> ok s2 = false).
  { intros s2. destruct (b_ s1 BTimeBase); [destruct (hyps s1) as [|h hs]; [discriminate|]; destruct (_ || _)|]; intros [= <-]; [reflexivity|exact K1|exact K1]. }
  revert A. generalize (if b_ s1 BTimeBase then match hyps s1 with [] => Undef | h :: _ => Ok (if same (i_format h) (B "trn") || same (format_of (ref s1)) (B "trn") || same (format_of (ref s1)) (B "stm") then fail s1 else s1) end else Ok s1).
  intros r A. destruct r as [s2| | |]; cbn [rbind]; try discriminate. specialize (A s2 eq_refl). intros [= <-].
  set (s3 := if negb _ && negb _ then _ else s2). assert (K3 : ok s3 = false) by (unfold s3; destruct (_ && _); [destruct (forallb _ _); [exact A|reflexivity]|exact A]). clearbody s3.
  destruct (outs s3); exact K3.
Qed.
