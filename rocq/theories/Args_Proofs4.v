(** Proofs about the command line of asclite: the properties of a run. *)
From Coq Require Import String.
From Coq Require Import List ZArith NArith Arith Bool Lia.
From Verif Require Store_Model Store_Proofs.
From Verif Require Import Base Sgml_Model Args_Model Args_Spec Args_Proofs1 Args_Proofs2 Args_Proofs3.
Import ListNotations.
Local Open Scope list_scope.

(** the last assignment to a name *)
Definition last_as (t : list (list N * list N)) (k : list N) : option (list N) := fold_left (fun a e => if same (fst e) k then Some (snd e) else a) t None.
Definition orr {A} (a b : option A) : option A := match a with Some x => Some x | None => b end.
Lemma last_as_gen t k : forall a, fold_left (fun a e => if same (fst e) k then Some (snd e) else a) t a = orr (last_as t k) a.
Proof.
  induction t as [|e t IH]; intros a; [reflexivity|]. unfold last_as. cbn [fold_left]. rewrite IH. destruct (same (fst e) k); [|reflexivity].
  rewrite (IH (Some (snd e))). destruct (last_as t k); reflexivity.
Qed.
Lemma last_as_app x y k : last_as (x ++ y) k = orr (last_as y k) (last_as x k).
Proof. unfold last_as at 1. rewrite fold_left_app. apply last_as_gen. Qed.
Lemma last_as_cons e t k : last_as (e :: t) k = orr (last_as t k) (if same (fst e) k then Some (snd e) else None).
Proof. change (e :: t) with ([e] ++ t). rewrite last_as_app. reflexivity. Qed.
Lemma massoc_none (m : Store_Model.smap (list N)) k : ~ In k (map fst m) -> Store_Model.massoc m k = None.
Proof.
  induction m as [|[q w] m IH]; intros H; cbn [Store_Model.massoc map fst In] in *; [reflexivity|]. destruct (Store_Model.str_eqb q k) eqn:E; [|apply IH; tauto].
  apply Store_Proofs.str_eqb_spec in E. tauto.
Qed.
Lemma last_as_massoc (m : Store_Model.smap (list N)) k : NoDup (map fst m) -> last_as m k = Store_Model.massoc m k.
Proof.
  induction m as [|[q w] m IH]; intros H; [reflexivity|]. inversion H as [|? ? H1 H2]; subst. rewrite last_as_cons, IH by exact H2. cbn [Store_Model.massoc fst snd].
  change (same q k) with (Store_Model.str_eqb q k). destruct (Store_Model.str_eqb q k) eqn:E; [|destruct (Store_Model.massoc m k); reflexivity].
  apply Store_Proofs.str_eqb_spec in E. subst. rewrite massoc_none by exact H1. reflexivity.
Qed.
Lemma set_all t : forall p k, Store_Model.massoc (Store_Model.p_map (fold_left (fun p a => Store_Model.set_property p (fst a) (snd a)) t p)) k
  = orr (last_as t k) (Store_Model.massoc (Store_Model.p_map p) k).
Proof.
  induction t as [|[n v] t IH]; intros p k; [reflexivity|]. cbn [fold_left]. rewrite IH, last_as_cons. cbn [Store_Model.set_property Store_Model.p_map]. rewrite Store_Proofs.massoc_mput.
  unfold same. cbn [fst snd]. destruct (last_as t k), (Store_Model.str_eqb n k); reflexivity.
Qed.
Lemma get_all t k : fst (Store_Model.get_property (fold_left (fun p a => Store_Model.set_property p (fst a) (snd a)) t Store_Model.initialize) k)
  = match orr (last_as t k) (Store_Model.massoc (Store_Model.p_map Store_Model.initialize) k) with Some v => v | None => [] end.
Proof. rewrite Store_Proofs.get_property_val. unfold Store_Proofs.val. rewrite set_all. reflexivity. Qed.

(** ** The table *)
Definition values (v : list (list N)) (i : nat) : list N := nth i v [].
Lemma lookup_none t k : (forall n, In n (map fst t) -> B n <> k) -> lookup t k = [].
Proof.
  induction t as [|[n v] t IH]; intros H; [reflexivity|]. cbn [lookup]. destruct (list_eq_dec N.eq_dec (B n) k) as [E|_]; [destruct (H n (or_introl eq_refl) E)|].
  apply IH. intros n' K. apply H. right. exact K.
Qed.
Lemma last_as_none t k : (forall n, In n (map fst t) -> n <> k) -> last_as t k = None.
Proof.
  induction t as [|[n v] t IH]; intros H; [reflexivity|]. rewrite last_as_cons. cbn [fst snd]. rewrite same_dec. destruct (list_eq_dec N.eq_dec n k) as [E|_]; [destruct (H n (or_introl eq_refl) E)|].
  rewrite IH; [reflexivity|]. intros n' K. apply H. right. exact K.
Qed.
Definition names : list string :=
  ["inputparser.trn.uid"; "align.case_sensitive"; "align.fragment_are_correct"; "align.timepruneoptimization"; "align.timepruneoptimizationthreshold"; "align.timewordoptimization";
   "align.timewordoptimizationthreshold"; "align.speakeroptimization"; "align.memorycompression"; "align.forcememorycompression"; "align.memorycompressionblock"; "align.adaptivecost";
   "align.wordaligncost"; "align.genericmethod"; "align.typecost"; "threads.number"; "recording.maxspeakeroverlaping"; "recording.minspeakeroverlaping"; "recording.bonlysg"; "recording.onlysg";
   "recording.maxnbofgb"; "recording.difficultygb"; "recording.nbrdifficultygb"; "recording.mindifficultygb"; "recording.minnbrdifficultygb"; "recording.maxoverlapinghypothesis";
   "align.optionally"; "general.feedback.level"; "report.outputdir"; "align.type"; "score.type"; "filter.uem.isg"; "filter.spkrautooverlap"; "filter.spkrautooverlap.option"; "filter.spkrmap";
   "filter.uem"; "filter.uem.option"; "filter.uem.arg_uemfilename"]%string.
Lemma table_names l : map fst (table l) = names. Proof. reflexivity. Qed.
(** the assignments of the program, without those of the user *)
Definition own (l : list option_) : list (list N * list N) :=
  [(B "inputparser.trn.uid", value l Utterance (B "spu_id")); (B "align.case_sensitive", truth (on l CaseSensitive)); (B "align.fragment_are_correct", truth (on l FragmentsCorrect));
   (B "align.timepruneoptimization", truth (given l Prune)); (B "align.timepruneoptimizationthreshold", value l Prune (B "0"));
   (B "align.timewordoptimization", truth (given l WordTime)); (B "align.timewordoptimizationthreshold", value l WordTime (B "0"));
   (B "align.speakeroptimization", truth (given l SpeakerFile)); (B "align.memorycompression", truth (given l Compression || on l ForceCompression));
   (B "align.forcememorycompression", truth (on l ForceCompression)); (B "align.memorycompressionblock", value l Compression (B "256"));
   (B "align.adaptivecost", truth (on l Adaptive)); (B "align.wordaligncost", truth (on l WordAlign)); (B "align.genericmethod", truth (generic l));
   (B "align.typecost", if on l TimeBased then B "2" else B "1"); (B "threads.number", value l Threads (B "1"));
   (B "recording.maxspeakeroverlaping", value l OverlapLimit (B "4")); (B "recording.minspeakeroverlaping", value l OverlapMin (B "0"));
   (B "recording.bonlysg", truth (given l OnlyGroup)); (B "recording.onlysg", value l OnlyGroup []); (B "recording.maxnbofgb", value l MemoryLimit (B "1"));
   (B "recording.difficultygb", truth (given l DifficultyLimit)); (B "recording.nbrdifficultygb", value l DifficultyLimit (B "16"));
   (B "recording.mindifficultygb", truth (given l DifficultyMin)); (B "recording.minnbrdifficultygb", value l DifficultyMin (B "0"));
   (B "recording.maxoverlapinghypothesis", B "1")]
  ++ (if first_rttm l then [(B "recording.maxoverlapinghypothesis", value l OverlapLimit (B "4"))] else [])
  ++ [(B "align.optionally", optional_word l); (B "general.feedback.level", int_text (atoi (value l Level (B "4")))); (B "report.outputdir", value l Directory []);
      (B "align.type", B "lev"); (B "score.type", B "stt"); (B "filter.uem.isg", truth (negb (on l NoGaps) && negb (generic l)))]
  ++ match self_side l with Some w => [(B "filter.spkrautooverlap", B "true"); (B "filter.spkrautooverlap.option", sname w)] | None => [] end
  ++ [(B "filter.spkrmap", B "false")]
  ++ (if trn_ref l then [(B "filter.uem.isg", B "false")]
      else match uem_side l, uem_of l with Some w, Some (f, _) => [(B "filter.uem", B "true"); (B "filter.uem.option", sname w); (B "filter.uem.arg_uemfilename", f)]
           | _, _ => [(B "filter.uem", B "false")] end).
Lemma uem_side_some l w : uem_side l = Some w -> exists f w', uem_of l = Some (f, w').
Proof. unfold uem_side. destruct (uem_of l) as [[f w']|]; [intros _; exists f, w'; reflexivity|discriminate]. Qed.
Lemma yes_truth b : yes_no b = truth b. Proof. reflexivity. Qed.
Lemma ref_trn l : same (format_of (option_map ref_input (ref_of l))) (B "trn") = trn_ref l.
Proof. rewrite format_ref. unfold trn_ref. destruct (ref_of l) as [[f []]|]; reflexivity. Qed.
Lemma app2 {A} (a b c d : list A) : a = c -> b = d -> a ++ b = c ++ d. Proof. intros -> ->. reflexivity. Qed.
Lemma own_assignments l s : fin l s -> assignments s = own l ++ props s.
Proof.
  intros F. unfold assignments, own. 
  rewrite (f_s _ _ F SUtterance), (f_s _ _ F SPrune), (f_s _ _ F SWord), (f_s _ _ F SMemory), (f_s _ _ F SThreads), (f_s _ _ F SMaxOver), (f_s _ _ F SMinOver), (f_s _ _ F SOnly), (f_s _ _ F SMaxGb), (f_s _ _ F SDiff), (f_s _ _ F SMinDiff), (f_s _ _ F SOutDir), (f_s _ _ F SUemFile) by discriminate.
  rewrite (f_b _ _ F BCase), (f_b _ _ F BFrag), (f_b _ _ F BPrune), (f_b _ _ F BWord), (f_b _ _ F BSpkr), (f_b _ _ F BMemory), (f_b _ _ F BForce), (f_b _ _ F BAdaptive), (f_b _ _ F BWordAlign),
    (f_b _ _ F BGeneric), (f_b _ _ F BTimeBase), (f_b _ _ F BOnly), (f_b _ _ F BDiff), (f_b _ _ F BMinDiff), (f_b _ _ F BSpkrMap) by discriminate.
  rewrite (f_isg _ _ F), (f_auto _ _ F), (f_uem _ _ F), (f_opt _ _ F), (f_f _ _ F), (f_h _ _ F), (f_r _ _ F), ref_trn.
  rewrite <- !app_assoc. cbn [bspec sspec]. apply app2; [reflexivity|]. apply app2.
  { unfold first_rttm. destruct (hyps_of l) as [|h hs]; [reflexivity|]. rewrite same_dec. destruct (list_eq_dec N.eq_dec (i_format h) (B "rttm")); reflexivity. }
  apply app2; [reflexivity|]. apply app2.
  { destruct (self_side l) as [w|] eqn:E; cbn [some]; [|reflexivity]. rewrite (f_sauto _ _ F w E). reflexivity. }
  apply app2; [reflexivity|]. apply app2; [|reflexivity]. destruct (trn_ref l); [reflexivity|].
  destruct (uem_side l) as [w|] eqn:E; cbn [some]; [|reflexivity]. rewrite (f_suem _ _ F w E). destruct (uem_side_some l w E) as (f & w' & ->). reflexivity.
Qed.
Lemma own_names l n : In n (map fst (own l)) -> exists m, In m names /\ n = B m.
Proof.
  intros K. assert (H : forallb (fun n => existsb (fun m => same n (B m)) names) (map fst (own l)) = true).
  { unfold own. rewrite !map_app, !forallb_app.
    destruct (first_rttm l), (self_side l), (trn_ref l), (uem_side l), (uem_of l) as [[? ?]|]; vm_compute; reflexivity. }
  rewrite forallb_forall in H. specialize (H n K). apply existsb_exists in H. destruct H as (m & M & E). exists m. split; [exact M|]. apply same_iff. exact E.
Qed.
