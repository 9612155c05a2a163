(** Proofs about the command line of asclite: the loop. *)
From Coq Require Import String.
From Coq Require Import List ZArith NArith Arith Bool Lia.
From Verif Require Store_Model Store_Proofs.
From Verif Require Import Base Sgml_Model Args_Model Args_Spec.
Import ListNotations.
Local Open Scope list_scope.

Lemma same_iff a b : same a b = true <-> a = b.
Proof. unfold same. apply Store_Proofs.str_eqb_spec. Qed.
Lemma same_dec a b : same a b = if list_eq_dec N.eq_dec a b then true else false.
Proof. destruct (list_eq_dec N.eq_dec a b) as [->|D]; [apply same_iff; reflexivity|]. destruct (same a b) eqn:E; [apply same_iff in E; congruence|reflexivity]. Qed.
Lemma dash_iff s : dash s = true <-> exists r, s = 45%N :: r.
Proof. destruct s as [|c r]; cbn [dash]; [split; [discriminate|intros (r & K); discriminate]|]. rewrite N.eqb_eq. split; [intros ->; eexists; reflexivity|intros (r' & [= -> _]); reflexivity]. Qed.
Lemma no_dash_false s : no_dash s -> dash s = false.
Proof. intros H. destruct (dash s) eqn:E; [|reflexivity]. apply dash_iff in E. destruct E as (r & ->). destruct (H r eq_refl). Qed.

(** ** Snoc *)
Lemma last_snoc {A} (f : option_ -> option A) l o : last_of f (l ++ [o]) = match f o with Some x => Some x | None => last_of f l end.
Proof. unfold last_of. rewrite fold_left_app. reflexivity. Qed.
Lemma value_snoc l o w d : value (l ++ [o]) w d = match o with Set_ s v => if setting_dec s w then v else value l w d | _ => value l w d end.
Proof. unfold value. rewrite last_snoc. destruct o; try reflexivity. destruct (setting_dec s w); reflexivity. Qed.
Lemma on_snoc l o w : on (l ++ [o]) w = on l w || match o with Switch s => if switch_dec s w then true else false | _ => false end.
Proof. unfold on. rewrite existsb_app. cbn [existsb]. rewrite orb_false_r. reflexivity. Qed.
Lemma given_snoc l o w : given (l ++ [o]) w = given l w || match o with Set_ s _ => if setting_dec s w then true else false | _ => false end.
Proof. unfold given. rewrite existsb_app. cbn [existsb]. rewrite orb_false_r. reflexivity. Qed.
Definition propd (l : list option_) : bool := existsb (fun o => match o with Property _ _ => true | _ => false end) l.
Lemma propd_snoc l o : propd (l ++ [o]) = propd l || match o with Property _ _ => true | _ => false end.
Proof. unfold propd. rewrite existsb_app. cbn [existsb]. rewrite orb_false_r. reflexivity. Qed.

(** ** The variables *)
Definition bspec (l : list option_) (x : bv) : bool :=
  match x with
  | BUtterance => given l Utterance | BCase => on l CaseSensitive | BFrag => on l FragmentsCorrect | BPrune => given l Prune | BWord => given l WordTime
  | BSpkr => given l SpeakerFile | BMaxOver => given l OverlapLimit | BMinOver => given l OverlapMin | BOnly => given l OnlyGroup
  | BMemory => given l Compression || on l ForceCompression | BForce => on l ForceCompression | BProperty => propd l | BAdaptive => on l Adaptive
  | BWordAlign => on l WordAlign | BMaxGb => given l MemoryLimit | BDiff => given l DifficultyLimit | BMinDiff => given l DifficultyMin
  | BUem => some (uem_of l) | BIsg => negb (on l NoGaps) | BSpkrMap => false | BAuto => some (self_of l) | BTimeBase => on l TimeBased | BGeneric => on l Generic
  end.
Definition sspec (l : list option_) (y : sv) : list N :=
  match y with
  | SUtterance => value l Utterance (B "spu_id") | SPrune => value l Prune (B "0") | SWord => value l WordTime (B "0") | SSpkr => value l SpeakerFile []
  | SMaxOver => value l OverlapLimit (B "4") | SMinOver => value l OverlapMin (B "0") | SOnly => value l OnlyGroup [] | SMemory => value l Compression (B "256")
  | SOptional => match optional_of l with Some s => sname s | None => B "none" end
  | SOutDir => value l Directory [] | SMaxGb => value l MemoryLimit (B "1") | SDiff => value l DifficultyLimit (B "16") | SMinDiff => value l DifficultyMin (B "0")
  | SUemFile => match uem_of l with Some (f, _) => f | None => [] end
  | SUem => match uem_of l with Some (_, s) => sname s | None => [] end
  | SAuto => match self_of l with Some s => sname s | None => [] end
  | SThreads => value l Threads (B "1")
  end.
Definition ref_input (r : list N * rformat) : input := {| i_file := fst r; i_format := rname (snd r); i_title := [] |}.
Record inv (l : list option_) (s : st) : Prop := {
  v_b : forall x, b_ s x = bspec l x;
  v_s : forall y, s_ s y = sspec l y;
  v_f : feedback s = atoi (value l Level (B "4"));
  v_o : outs s = reports_of l;
  v_h : hyps s = hyps_of l;
  v_r : ref s = option_map ref_input (ref_of l);
  v_p : forall n, Store_Model.massoc (props s) n = property_of l n;
  v_n : NoDup (map fst (props s));
  v_k : ok s = true }.
Lemma inv_start : inv [] start.
Proof. split; try reflexivity; try (intros []; reflexivity). constructor. Qed.

Definition stops (rest : list (list N)) : Prop := match rest with [] => True | w :: _ => dash w = true end.
Ltac snoc := rewrite ?on_snoc, ?given_snoc, ?propd_snoc, ?value_snoc; unfold uem_of, self_of, optional_of, ref_of, property_of; rewrite ?last_snoc; cbn [switch_dec setting_dec switch_rec switch_rect setting_rec setting_rect];
  cbv beta iota; rewrite ?orb_false_r, ?orb_true_r; cbn [orb].
Lemma hyps_snoc l o : hyps_of (l ++ [o]) = hyps_of l ++ match o with Hypothesis_ f fm t => [{| i_file := f; i_format := hname (or_else fm Htrn); i_title := or_else t [] |}] | _ => [] end.
Proof. unfold hyps_of. rewrite flat_map_app. cbn [flat_map]. rewrite app_nil_r. reflexivity. Qed.
Lemma reports_snoc l o : reports_of (l ++ [o]) = reports_of l ++ match o with Output r => map oname r | _ => [] end.
Proof. unfold reports_of. rewrite flat_map_app. cbn [flat_map]. rewrite app_nil_r. reflexivity. Qed.
(** the other fields stay *)
Ltac common V := first [ rewrite (v_f _ _ V), ?value_snoc; reflexivity
  | rewrite (v_o _ _ V), ?reports_snoc, ?app_nil_r; reflexivity
  | rewrite (v_h _ _ V), ?hyps_snoc, ?app_nil_r; reflexivity
  | rewrite (v_r _ _ V); unfold ref_of; rewrite ?last_snoc; reflexivity
  | intros n; rewrite (v_p _ _ V); unfold property_of; rewrite ?last_snoc; reflexivity
  | exact (v_n _ _ V) | exact (v_k _ _ V) ].
Ltac bs V := intros x; destruct x; cbn [b_ setb sets set_feedback set_width set_outs set_hyps set_ref set_props bv_dec bv_rec bv_rect]; cbv beta iota;
  rewrite ?(v_b _ _ V); cbn [bspec]; snoc; try reflexivity; try (rewrite ?orb_true_r; reflexivity).
Ltac ss V := intros y; destruct y; cbn [s_ setb sets set_feedback set_width set_outs set_hyps set_ref set_props sv_dec sv_rec sv_rect]; cbv beta iota;
  rewrite ?(v_s _ _ V); cbn [sspec]; snoc; try reflexivity.
Lemma inv_flag l s (w : switch) (s' : st) :
  inv l s ->
  s' = match w with
       | CaseSensitive => setb BCase true s | FragmentsCorrect => setb BFrag true s | TimeBased => setb BTimeBase true s | Adaptive => setb BAdaptive true s
       | WordAlign => setb BWordAlign true s | ForceCompression => setb BMemory true (setb BForce true s) | Generic => setb BGeneric true s
       | NoGaps => setb BIsg false s | CheckSpeakers => setb BSpkrMap false s end ->
  inv (l ++ [Switch w]) s'.
Proof.
  intros V ->. destruct w; (split; [bs V|ss V|..]); cbn [feedback outs hyps ref props ok setb]; try common V.
Qed.
