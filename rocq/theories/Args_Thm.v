(** C117: the command line of asclite. *)
From Coq Require Import String.
From Coq Require Import List ZArith NArith Arith Bool Lia.
From Verif Require Store_Model.
From Verif Require Import Base Sgml_Model Args_Model Args_Spec Args_Proofs1 Args_Proofs2 Args_Proofs3 Args_Proofs4 Args_Proofs5 Args_Proofs6.
Import ListNotations.
Local Open Scope list_scope.

(** Options in any order and number: the run is launched with what they say, or refused. *)
Theorem C117_options : forall l,
  l <> [] -> Forall usable l -> (on l TimeBased = true -> generic l = true \/ hyps_of l <> []) ->
  (acceptable l -> exists c, main (flat_map words l) = Ok (Launch c) /\ meets l c) /\
  (~ acceptable l -> main (flat_map words l) = Ok Refused).
Proof.
  intros l H U T. destruct (run_ok l H U T) as (s & F & K & E). split.
  - intros A. exists (config_of s). rewrite E, (proj2 K A). split; [reflexivity|apply fin_meets; exact F].
  - intros A. rewrite E. destruct (ok s); [destruct (A (proj1 K eq_refl))|reflexivity].
Qed.
Print Assumptions C117_options.

(** A word that is no option is refused where an option is expected. *)
Theorem C117_unknown : forall l w rest,
  Forall usable l -> (on l TimeBased = true -> generic l = true \/ hyps_of l <> []) -> ~ In w option_words ->
  ((exists r, w = 45%N :: r) \/ exists l1 o, l = l1 ++ [o] /\ complete o) ->
  main (flat_map words l ++ w :: rest) = Ok Refused.
Proof.
  intros l w rest U T N D. apply bad_run2; [exact U|destruct D as [D|D]; [left; apply dash_iff; exact D|right; exact D]| |exact T].
  intros s V. exists (fail s), rest. split; [apply unknown_step; exact N|]. split; [reflexivity|]. exact (inv_kept l s V).
Qed.
Print Assumptions C117_unknown.

(** A setting without its value is refused, at the end of the line or before another option. *)
Theorem C117_missing : forall l w rest,
  Forall usable l -> (on l TimeBased = true -> generic l = true \/ hyps_of l <> []) ->
  given l w = false -> (w = Compression -> on l ForceCompression = false) ->
  (rest = [] \/ (~ In w [Directory; Level; Width; Threads] /\ exists r t, rest = (45%N :: r) :: t)) ->
  main (flat_map words l ++ word_of_setting w :: rest) = Ok Refused.
Proof.
  intros l w rest U T G C R. apply bad_run2; [exact U|left; destruct w; reflexivity| |exact T].
  intros s V. exists (fail s), rest. split; [|split; [reflexivity|exact (inv_kept l s V)]].
  apply (setting_missing l); [exact V|exact G|exact C|..].
  - destruct R as [-> |[_ (r & t & ->)]]; [exact I|reflexivity].
  - destruct R as [-> |[R _]]; [left; reflexivity|right; exact R].
Qed.
Print Assumptions C117_missing.

(** So is an option for a file at the end of the line. *)
Theorem C117_file : forall l w,
  Forall usable l -> (on l TimeBased = true -> generic l = true \/ hyps_of l <> []) -> In w [B "-h"; B "-r"; B "-uem"] ->
  main (flat_map words l ++ [w]) = Ok Refused.
Proof.
  intros l w U T W. apply bad_run2; [exact U| | |exact T].
  - left. destruct W as [<- |[<- |[<- |[]]]]; reflexivity.
  - intros s V. exists (fail s), []. split; [destruct W as [<- |[<- |[<- |[]]]]; reflexivity|]. split; [reflexivity|exact (inv_kept l s V)].
Qed.
Print Assumptions C117_file.

(** Without any word there is only the help. *)
Theorem C117_help : forall args, main args = Ok Help <-> args = [].
Proof.
  intros args. split; [|intros ->; reflexivity]. unfold main. destruct args as [|a r]; [reflexivity|].
  destruct (loop _ _ _) as [s| | |]; cbn [rbind]; try discriminate. destruct (if b_ s BGeneric then _ else _) as [s2| | |]; cbn [rbind]; try discriminate.
  destruct (ok s2); discriminate.
Qed.
Print Assumptions C117_help.

(** ** What does not hold *)
(** The help: "-h hypfile [ [ ctm | rttm | trn ] title ]"; a title after a file without its format is refused. *)
Theorem C117_title_refuted : exists f t, no_dash t /\ main [B "-r"; B "ref.trn"; B "-h"; f; t] = Ok Refused /\ exists c, main [B "-r"; B "ref.trn"; B "-h"; f] = Ok (Launch c).
Proof. exists (B "hyp.trn"), (B "system"). split; [intros r; discriminate|]. split; [vm_compute; reflexivity|eexists; vm_compute; reflexivity]. Qed.
Print Assumptions C117_title_refuted.
(** -spkrmap asks for a check of the speakers: the check stays off. *)
Theorem C117_speakers_refuted : exists l c, Forall usable l /\ acceptable l /\ on l CheckSpeakers = true /\ main (flat_map words l) = Ok (Launch c) /\
  fst (Store_Model.get_property (c_props c) (B "filter.spkrmap")) = B "false".
Proof.
  exists [Reference (B "r.stm") (Some Rstm); Hypothesis_ (B "h.ctm") (Some Hctm) None; Switch CheckSpeakers].
  assert (U : Forall usable [Reference (B "r.stm") (Some Rstm); Hypothesis_ (B "h.ctm") (Some Hctm) None; Switch CheckSpeakers]) by (repeat constructor).
  assert (A : acceptable [Reference (B "r.stm") (Some Rstm); Hypothesis_ (B "h.ctm") (Some Hctm) None; Switch CheckSpeakers]).
  { split; [discriminate|]. intros _. exists (B "r.stm"), Rstm. split; [reflexivity|]. split; [intros h [<- |[]]; constructor|intros K; discriminate K]. }
  destruct (proj1 (C117_options [Reference (B "r.stm") (Some Rstm); Hypothesis_ (B "h.ctm") (Some Hctm) None; Switch CheckSpeakers] ltac:(discriminate) U ltac:(intros K; discriminate K)) A) as (c & E & M). exists c. repeat (split; [first [exact U|exact A|exact E|reflexivity]|]).
  destruct M as (_ & _ & _ & _ & _ & _ & _ & M). rewrite M. vm_compute. reflexivity.
Qed.
Print Assumptions C117_speakers_refuted.
(** A missing directory is no error when another option follows. *)
Theorem C117_directory_refuted : exists c, main [B "-r"; B "r.stm"; B "stm"; B "-h"; B "h.ctm"; B "ctm"; B "-O"; B "-s"] = Ok (Launch c).
Proof. eexists. vm_compute. reflexivity. Qed.
Print Assumptions C117_directory_refuted.
(** -D takes any word for ref, hyp or both. *)
Theorem C117_side_refuted : exists c, main [B "-r"; B "r.stm"; B "stm"; B "-h"; B "h.ctm"; B "ctm"; B "-D"; B "reference"] = Ok (Launch c) /\
  fst (Store_Model.get_property (c_props c) (B "align.optionally")) = B "reference".
Proof. eexists. split; vm_compute; reflexivity. Qed.
Print Assumptions C117_side_refuted.
(** The time-based cost without a hypothesis reads the first of none. *)
Theorem C117_time_refuted : main [B "-time-base-cost"; B "-r"; B "r.rttm"; B "rttm"] = Undef.
Proof. vm_compute. reflexivity. Qed.
Print Assumptions C117_time_refuted.
(** Its message names "rttm and/or ctm": with a ctm hypothesis it is always refused. *)
Theorem C117_ctm_refuted : forall f fm h t, main (flat_map words [Switch TimeBased; Reference f (Some fm); Hypothesis_ h (Some Hctm) t]) = Ok Refused \/ ~ usable (Hypothesis_ h (Some Hctm) t).
Proof.
  intros f fm h t. destruct t as [t|].
  - destruct (dash t) eqn:D.
    + right. intros [_ K]. apply dash_iff in D. destruct D as (r & ->). destruct (K r eq_refl).
    + left. apply C117_options; [discriminate| |right; discriminate|].
      * repeat constructor; [discriminate|]. intros r ->. discriminate D.
      * intros [_ K]. destruct (K eq_refl) as (f' & fm' & [= <- <-] & K1 & K2). rewrite (K2 eq_refl) in *. specialize (K1 _ (or_introl eq_refl)). inversion K1.
  - left. apply C117_options; [discriminate|repeat constructor|right; discriminate|].
    intros [_ K]. destruct (K eq_refl) as (f' & fm' & [= <- <-] & K1 & K2). rewrite (K2 eq_refl) in *. specialize (K1 _ (or_introl eq_refl)). inversion K1.
Qed.
Print Assumptions C117_ctm_refuted.
(** The help gives 2.0 as the default of -memory-limit: it is 1. *)
Theorem C117_memory_refuted : exists c, main [B "-r"; B "r.stm"; B "stm"; B "-h"; B "h.ctm"; B "ctm"] = Ok (Launch c) /\
  fst (Store_Model.get_property (c_props c) (B "recording.maxnbofgb")) = B "1".
Proof. eexists. split; vm_compute; reflexivity. Qed.
Print Assumptions C117_memory_refuted.

(** ** Cases *)
Definition some_options : list option_ :=
  [Switch CaseSensitive; Hypothesis_ (B "a.rttm") (Some Hrttm) (Some (B "one")); Set_ OverlapLimit (B "3"); Uem (B "f.uem") (Some OnHyp); Reference (B "old") None;
   Hypothesis_ (B "b.rttm") (Some Hrttm) None; Output [Sum; Sgml]; Set_ OverlapLimit (B "5"); Property (B "align.type") (B "other"); Reference (B "r.rttm") (Some Rrttm);
   Switch TimeBased; Optional None; Set_ Threads (B "2")].

(** ** Concrete cases *)
Example options_case : some_options <> [] /\ Forall usable some_options /\ (on some_options TimeBased = true -> generic some_options = true \/ hyps_of some_options <> []) /\
  acceptable some_options /\ wanted some_options (B "recording.maxoverlapinghypothesis") = B "5" /\ wanted some_options (B "align.type") = B "other" /\
  ~ acceptable (some_options ++ [Reference (B "r.trn") None]).
Proof.
  split; [discriminate|]. split; [repeat constructor; cbn; try discriminate; lia|]. split; [right; discriminate|].
  split.
  - split; [discriminate|]. intros _. exists (B "r.rttm"), Rrttm. split; [reflexivity|]. split; [|reflexivity]. intros h [<- |[<- |[]]]; constructor.
  - split; [vm_compute; reflexivity|]. split; [vm_compute; reflexivity|]. intros [_ K]. destruct (K eq_refl) as (f & fm & [= <- <-] & K1 & _).
    specialize (K1 _ (or_introl eq_refl)). inversion K1.
Qed.

Example generic_case : let l := Switch Generic :: some_options in l <> [] /\ Forall usable l /\ acceptable l /\ uem_side l = Some OnHyp /\ self_side (l ++ [SelfOverlap (Some OnRef)]) = None.
Proof. cbv zeta. split; [discriminate|]. split; [constructor; [exact I|exact (proj1 (proj2 options_case))]|]. split; [split; [discriminate|discriminate]|split; reflexivity]. Qed.

Example unknown_case : Forall usable some_options /\ ~ In (B "-x") option_words /\ ~ In (B "x") option_words /\ (exists r, B "-x" = 45%N :: r) /\ exists l1 o, some_options = l1 ++ [o] /\ complete o.
Proof.
  split; [exact (proj1 (proj2 options_case))|]. assert (D : forall w, existsb (fun x => same w x) option_words = false -> ~ In w option_words).
  { intros w E K. assert (existsb (fun x => same w x) option_words = true) as K2 by (apply existsb_exists; exists w; split; [exact K|apply same_iff; reflexivity]). congruence. }
  split; [apply D; vm_compute; reflexivity|]. split; [apply D; vm_compute; reflexivity|]. split; [eexists; reflexivity|].
  exists (removelast some_options), (Set_ Threads (B "2")). split; [reflexivity|exact I].
Qed.

Example missing_case : Forall usable some_options /\ given some_options Utterance = false /\ given some_options Directory = false /\ ~ In Utterance [Directory; Level; Width; Threads].
Proof. split; [exact (proj1 (proj2 options_case))|]. split; [reflexivity|]. split; [reflexivity|]. intros K. cbn in K. intuition discriminate. Qed.
