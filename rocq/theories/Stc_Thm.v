(** C121: the command line of sc_stats. *)
From Coq Require Import String.
From Coq Require Import List ZArith NArith Arith Bool Lia.
From Verif Require Import Base Sgml_Model Stc_Model Stc_Spec Stc_Proofs.
Import ListNotations.
Local Open Scope list_scope.
Local Open Scope nat_scope.

(** Options in any order, with what follows them and is not looked at: with -p and alignments that can be read, the tests, graphs
    and reports asked for are made, in their order and with the values the options say. *)
Theorem C121_options : forall det l tail, l <> [] -> Forall usable l -> ignored l tail -> length (alignments l) <= 40 -> In PipeIn l -> sensible l -> ~ idle l ->
  exists ev ok, main true det (flat_map words l ++ tail) = Ok (ev, ok) /\ does l det ev ok.
Proof.
  intros det l tail N U G L P S I. rewrite (main_eq true det l tail N U G L P). rewrite <- idle_iff in I. apply not_false_iff_true in I. rewrite I. apply run_ok. exact S.
Qed.
Print Assumptions C121_options.

(** Without any of them nothing is made. *)
Theorem C121_idle : forall det l tail, l <> [] -> Forall usable l -> ignored l tail -> length (alignments l) <= 40 -> In PipeIn l -> idle l ->
  main true det (flat_map words l ++ tail) = Ok ([], true).
Proof. intros det l tail N U G L P I. rewrite (main_eq true det l tail N U G L P). rewrite (proj2 (idle_iff l) I). reflexivity. Qed.
Print Assumptions C121_idle.

(** Alignments that cannot be read are refused, and nothing is made. *)
Theorem C121_unread : forall det l tail, l <> [] -> Forall usable l -> ignored l tail -> length (alignments l) <= 40 -> In PipeIn l -> main false det (flat_map words l ++ tail) = Exit.
Proof. intros det l tail N U G L P. apply (main_eq false det l tail N U G L P). Qed.
Print Assumptions C121_unread.

(** So are no arguments, a word that looks like an option and is none, and an option without its value at the end. *)
Theorem C121_none : forall loads det, main loads det [] = Exit.
Proof. reflexivity. Qed.
Print Assumptions C121_none.
Theorem C121_unknown : forall loads det l w rest, Forall usable l -> length (alignments l) <= 40 -> (exists r, w = 45%N :: r) -> ~ In w (map B option_words) ->
  main loads det (flat_map words l ++ w :: rest) = Exit.
Proof.
  intros loads det l w rest U L D H. apply main_bad; [exact U|exact L|apply dash_iff; exact D|]. intros s. unfold step.
  repeat match goal with |- context [same w ?x] => let E := fresh in destruct (same w x) eqn:E; [apply same_iff in E; subst w; destruct H; vm_compute; tauto|] end. reflexivity.
Qed.
Print Assumptions C121_unknown.
Theorem C121_missing : forall loads det l w, Forall usable l -> length (alignments l) <= 40 -> In w ["-a"; "-f"; "-O"; "-n"; "-e"; "-l"; "-t"; "-r"; "-g"]%string ->
  main loads det (flat_map words l ++ [B w]) = Exit.
Proof. intros loads det l w U L I. cbn [In] in I. apply main_bad; [exact U|exact L|intuition (subst w; reflexivity)|]. intros s. intuition (subst w; reflexivity). Qed.
Print Assumptions C121_missing.
Theorem C121_file : forall loads det l f rest, Forall usable l -> length (alignments l) <= 40 -> (exists r, f = 45%N :: r) -> main loads det (flat_map words l ++ B "-a" :: f :: rest) = Exit.
Proof. intros loads det l f rest U L (r & ->). apply main_bad; [exact U|exact L|reflexivity|]. intros s. reflexivity. Qed.
Print Assumptions C121_file.

(** ** What does not hold *)
(** Without -p a variable that was not set says if the standard input is read: files after -a do not take its place. *)
Theorem C121_pipe_refuted : forall loads det l tail, l <> [] -> Forall usable l -> ignored l tail -> length (alignments l) <= 40 -> ~ In PipeIn l ->
  main loads det (flat_map words l ++ tail) = Undef.
Proof. exact main_nopipe. Qed.
Print Assumptions C121_pipe_refuted.
(** With -p they change nothing. *)
Definition no_files (o : option_) : bool := match o with Alignments _ => false | _ => true end.
Lemma run_files det s v : run_multi det (set_files v s) = run_multi det s.
Proof. destruct s. reflexivity. Qed.
Lemma apply_no_files l : forall s t, (forall v, set_files v s = set_files v t) -> forall v, set_files v (apply (filter no_files l) s) = set_files v (apply l t).
Proof.
  induction l as [|o l IH]; intros s t H v; [apply H|]. specialize (fun x y (K : forall z, set_files z x = set_files z y) => IH x y K v).
  destruct s, t. pose proof (H []) as H0. cbn in H0. injection H0 as -> -> -> -> -> -> -> -> -> -> -> ->.
  destruct o; unfold apply in *; cbn [filter no_files fold_left apply1]; apply IH; reflexivity.
Qed.
Theorem C121_files_refuted : forall loads det l, Forall usable l -> length (alignments l) <= 40 -> In PipeIn l -> main loads det (flat_map words (filter no_files l)) = main loads det (flat_map words l).
Proof.
  intros loads det l U L P.
  assert (UF : Forall usable (filter no_files l)). { apply Forall_forall. intros x K. apply filter_In in K. rewrite Forall_forall in U. apply U. tauto. }
  assert (PF : In PipeIn (filter no_files l)) by (apply filter_In; split; [exact P|reflexivity]).
  assert (AF : alignments (filter no_files l) = []). { clear. induction l as [|o l IH]; [reflexivity|]. destruct o; cbn [filter no_files]; try exact IH; unfold alignments in *; cbn [flat_map app]; exact IH. }
  assert (N : l <> []) by (intros ->; destruct P). assert (NF : filter no_files l <> []) by (intros E; rewrite E in PF; destruct PF).
  pose proof (main_eq loads det l [] N U (or_introl eq_refl) L P) as E1. pose proof (main_eq loads det (filter no_files l) [] NF UF (or_introl eq_refl)) as E2. rewrite AF in E2. specialize (E2 ltac:(cbn; lia) PF).
  rewrite app_nil_r in E1, E2. rewrite E1, E2. pose proof (apply_no_files l start start (fun v => eq_refl) []) as S.
  rewrite <- (run_files det (apply (filter no_files l) start) []), <- (run_files det (apply l start) []), S.
  change (any_test (apply (filter no_files l) start)) with (any_test (set_files [] (apply (filter no_files l) start))). change (any_graph (apply (filter no_files l) start)) with (any_graph (set_files [] (apply (filter no_files l) start))).
  change (any_rep (apply (filter no_files l) start)) with (any_rep (set_files [] (apply (filter no_files l) start))). rewrite S. reflexivity.
Qed.
Print Assumptions C121_files_refuted.
(** More than 40 of them are written outside of their array. *)
Theorem C121_many_refuted : forall loads det, main loads det (B "-a" :: repeat (B "x") 41) = Undef.
Proof. intros loads det. vm_compute. reflexivity. Qed.
Print Assumptions C121_many_refuted.
(** "-f [ E | R | W ]: Percentage formula": -f is the level of the messages, and the formula is always E. *)
Theorem C121_formula_refuted : forall loads det l ev ok v, l <> [] -> Forall usable l -> length (alignments l) <= 40 -> In PipeIn l -> main loads det (flat_map words l) = Ok (ev, ok) ->
  main loads det (flat_map words (l ++ [Level v])) = Ok (ev, ok).
Proof.
  intros loads det l ev ok v N U L P H. assert (NL : l ++ [Level v] <> []) by (destruct l; discriminate).
  assert (UL : Forall usable (l ++ [Level v])) by (apply Forall_app; split; [exact U|constructor; [exact I|constructor]]).
  assert (LL : length (alignments (l ++ [Level v])) <= 40) by (unfold alignments; rewrite flat_map_app; cbn [flat_map app]; rewrite app_nil_r; exact L).
  pose proof (main_eq loads det l [] N U (or_introl eq_refl) L P) as E1. pose proof (main_eq loads det (l ++ [Level v]) [] NL UL (or_introl eq_refl) LL (in_or_app _ _ _ (or_introl P))) as E2.
  rewrite app_nil_r in E1, E2. rewrite E2. rewrite E1 in H. rewrite <- H. unfold apply. rewrite fold_left_app. cbn [fold_left apply1]. fold (apply l start). destruct (apply l start). reflexivity.
Qed.
Print Assumptions C121_formula_refuted.
(** A unified report of no test and no graph reads ranks that were not made. *)
Theorem C121_unified_refuted : forall det l tail, l <> [] -> Forall usable l -> ignored l tail -> length (alignments l) <= 40 -> In PipeIn l -> ~ idle l -> ~ sensible l ->
  main true det (flat_map words l ++ tail) = Undef.
Proof.
  intros det l tail N U G L P I S. rewrite (main_eq true det l tail N U G L P). rewrite <- idle_iff in I. apply not_false_iff_true in I. rewrite I.
  unfold run_multi. destruct (mentions_all l) as (M1 & M2 & _). destruct (any_iff (apply l start)) as (A1 & A2 & _).
  assert (A : any_test (apply l start) || any_graph (apply l start) = false).
  { destruct (any_test (apply l start) || any_graph (apply l start)) eqn:E; [|reflexivity]. destruct S. intros _. apply orb_true_iff in E. destruct E as [E|E].
    - apply A1 in E. destruct E as (t & E). left. exists t. rewrite <- M1. exact E.
    - apply A2 in E. destruct E as (t & E). right. exists t. rewrite <- M2. exact E. }
  destruct (unified (apply l start)) eqn:E; [rewrite A; reflexivity|]. destruct S. intros W. assert (K : unified (apply l start) = true) by (apply unified_value; right; exact W). congruence.
Qed.
Print Assumptions C121_unified_refuted.
(** A name given twice is not asked for, "npr" of the help is no report, and -n - gives no DET curve and no error. *)
Theorem C121_twice_refuted : forall n base, switched n base [Some (B n); Some (B n)] = false.
Proof. intros n base. unfold switched. cbn [since existsb orb andb count_occ]. destruct (word_dec (B n) (B n)); [|contradiction]. reflexivity. Qed.
Print Assumptions C121_twice_refuted.
Theorem C121_npr_refuted : main true true [B "-p"; B "-r"; B "npr"] = Ok ([], true).
Proof. vm_compute. reflexivity. Qed.
Print Assumptions C121_npr_refuted.
Theorem C121_det_refuted : forall det, main true det [B "-p"; B "-g"; B "det"; B "-n"; B "-"] = Ok ([], true).
Proof. intros det. vm_compute. reflexivity. Qed.
Print Assumptions C121_det_refuted.

(** ** Cases *)
Definition some_options : list option_ :=
  [Tests [B "std4"; B "wilc"; B "anovar"]; PipeIn; Directory (B "out"); Name (B "a"); Name (B "b"); Reports [B "sum"; B "none"; B "prn"]; Graphs [B "det"; B "range"]; UnifiedReport; Verbose; Width (B "70"); Description (B "All")].
Example some_usable : Forall usable some_options /\ length (alignments some_options) <= 40 /\ In PipeIn some_options /\ ignored some_options [B "tail"; B "-zz"].
Proof.
  repeat split; try (cbn; tauto); try (cbn; lia).
  - repeat (constructor; [cbn; try exact I; try (split; [discriminate|repeat constructor; intros r; discriminate])|]). constructor.
  - right. split; [exists (removelast some_options), (Description (B "All")); split; [reflexivity|exact I]|]. eexists. eexists. split; [reflexivity|]. intros r. discriminate.
Qed.
Example some_sensible : sensible some_options /\ ~ idle some_options.
Proof. split; [intros _; left; exists TMcn; vm_compute; reflexivity|]. intros (K & _). specialize (K TMcn). vm_compute in K. discriminate K. Qed.
Example some_run : main true true (flat_map words some_options) =
  Ok ([Test TMapsswe (B "E") false true (B "All") (B "out/b.stats"); Test TSign (B "E") false true (B "All") (B "out/b.stats"); Test TMcn (B "E") false true (B "All") (B "out/b.stats");
       Test TAnovar (B "E") false true (B "All") (B "out/b.stats"); Unified [TMapsswe; TSign; TMcn; TAnovar] (B "All") (B "out/b.stats") (B "out");
       Graph GRange (B "E") (B "All") (B "out/b.range"); Graph GDet (B "E") (B "All") (B "out/b"); Report RPrn [] (B "out/b") (Some 70%Z)], true).
Proof. vm_compute. reflexivity. Qed.
Example some_det : exists ev, main true false (flat_map words some_options) = Ok (ev, false) /\ length ev = 7.
Proof. eexists. split; vm_compute; reflexivity. Qed.
Example only_reports : ~ sensible [PipeIn; UnifiedReport; Reports [B "sum"]] /\ ~ idle [PipeIn; UnifiedReport; Reports [B "sum"]].
Proof.
  split; [|intros (_ & _ & K); specialize (K RSum); vm_compute in K; discriminate K].
  intros K. destruct (K (or_introl (or_intror (or_introl eq_refl)))) as [(t & E)|(t & E)]; destruct t; vm_compute in E; discriminate E.
Qed.
Example no_choice : idle [PipeIn; Verbose].
Proof. repeat split; intros x; destruct x; vm_compute; reflexivity. Qed.
