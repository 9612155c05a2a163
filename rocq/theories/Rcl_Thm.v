(** C120: the command line of rover. *)
From Coq Require Import String.
From Coq Require Import List ZArith QArith NArith Arith Bool Lia.
From Verif Require Store_Model Store_Proofs.
From Verif Require Import Base Sgml_Model Rcl_Model Rcl_Spec Rcl_Proofs.
Import ListNotations.
Local Open Scope list_scope.
Local Open Scope nat_scope.

(** Options in any order, with what follows them and is not looked at: a complete command line is run, any other is refused. *)
Theorem C120_options : forall e l tail, Forall usable l -> ignored l tail -> length (hyps_of l) <= 50 ->
  (forall o v, complete l o v -> exists ev b, main e (flat_map words l ++ tail) = Ok (ev, b) /\ does e l o v ev b) /\
  ((forall o v, ~ complete l o v) -> main e (flat_map words l ++ tail) = Exit).
Proof. intros e l tail U G L. split; [intros o v C; apply main_done; assumption|apply main_refused; assumption]. Qed.
Print Assumptions C120_options.

(** A word that looks like an option and is none is refused. *)
Theorem C120_unknown : forall e l w rest, Forall usable l -> length (hyps_of l) <= 50 -> (exists r, w = 45%N :: r) -> ~ In w (map B option_words) ->
  main e (flat_map words l ++ w :: rest) = Exit.
Proof.
  intros e l w rest U L D H. apply main_bad_exit; [exact U|exact L|apply dash_iff; exact D|]. intros s. unfold step.
  repeat match goal with |- context [same w ?x] => let E := fresh in destruct (same w x) eqn:E; [apply same_iff in E; subst w; destruct H; vm_compute; tauto|] end. reflexivity.
Qed.
Print Assumptions C120_unknown.

(** So is an option without its value at the end, except for -o; one followed by another option where a file is expected; and a
    method there is not. *)
Theorem C120_missing : forall e l w, Forall usable l -> length (hyps_of l) <= 50 -> In w ["-h"; "-a"; "-c"; "-l"; "-f"; "-m"]%string -> main e (flat_map words l ++ [B w]) = Exit.
Proof. intros e l w U L I. cbn [In] in I. apply main_bad_exit; [exact U|exact L|intuition (subst w; reflexivity)|]. intros s. intuition (subst w; reflexivity). Qed.
Print Assumptions C120_missing.
Theorem C120_file : forall e l w f rest, Forall usable l -> length (hyps_of l) <= 50 -> In w ["-h"; "-o"]%string -> (exists r, f = 45%N :: r) -> main e (flat_map words l ++ B w :: f :: rest) = Exit.
Proof.
  intros e l w f rest U L I (r & ->). cbn [In] in I. apply main_bad_exit; [exact U|exact L|intuition (subst w; reflexivity)|]. intros s. intuition (subst w; reflexivity).
Qed.
Print Assumptions C120_file.
Theorem C120_method : forall e l w rest, Forall usable l -> length (hyps_of l) <= 50 -> (forall v, w <> B (vote_word v)) -> main e (flat_map words l ++ B "-m" :: w :: rest) = Exit.
Proof.
  intros e l w rest U L H. apply main_bad_exit; [exact U|exact L|reflexivity|]. intros s. change (step e (B "-m") (w :: rest) s) with (meth_arg (w :: rest) s). unfold meth_arg.
  repeat match goal with |- context [same w ?x] => let E := fresh in destruct (same w x) eqn:E; [apply same_iff in E; exfalso|] end; [..|reflexivity].
  - exact (H VMeth1 H0). - exact (H VOracle H1). - exact (H VPutat H2). - exact (H VMaxConf H3). - exact (H VAvgConf H4). - exact (H VMeth1a H5). - exact (H VMaxConfa H6).
Qed.
Print Assumptions C120_method.

(** ** What does not hold *)
(** -o at the end reads the null pointer after the last argument. *)
Theorem C120_output_refuted : forall e l, Forall usable l -> length (hyps_of l) <= 50 -> one_format l -> main e (flat_map words l ++ [B "-o"]) = Undef.
Proof. intros e l U L F. apply (main_bad e l (B "-o") [] U L eq_refl (proj2 (agree_iff _) F) Undef); [reflexivity|right; reflexivity]. Qed.
Print Assumptions C120_output_refuted.
(** "This option must be used more than once": up to 50 times. *)
Definition plain : env := {| e_atof := fun _ => (1 # 2)%Q; e_creates := fun _ => true; e_opens := fun f => negb (Store_Model.str_eqb f (B "none")) |}.
Theorem C120_many_refuted : main plain (concat (repeat [B "-h"; B "h"; B "ctm"] 51)) = Undef.
Proof. vm_compute. reflexivity. Qed.
Print Assumptions C120_many_refuted.
(** Hypotheses without a format, or with one that rover does not combine: nothing is done, with status 0. *)
Theorem C120_nothing_refuted : forall e l o v tail, Forall usable l -> ignored l tail -> length (hyps_of l) <= 50 -> complete l o v -> (exists a, In a (hyps_of l) /\ snd a <> B "ctm") ->
  main e (flat_map words l ++ tail) = Ok ([], true).
Proof.
  intros e l o v tail U G L C (a & Ia & K). destruct (main_done e l tail o v U G L C) as (ev & b & E & D). rewrite E. destruct D as [D|D|? ? ? ? D|? ? D]; [reflexivity|..]; destruct (K (D a Ia)).
Qed.
Print Assumptions C120_nothing_refuted.
(** The width is read and not used: the command line without -l gives the same run. *)
Definition no_width (o : option_) : bool := match o with Width _ => false | _ => true end.
Theorem C120_width_refuted : forall e l, Forall usable l -> length (hyps_of l) <= 50 -> main e (flat_map words (filter no_width l)) = main e (flat_map words l).
Proof.
  intros e l U L. assert (EH : hyps_of (filter no_width l) = hyps_of l).
  { clear. induction l as [|o l IH]; [reflexivity|]. destruct o as [f [w|]|f|v|v|v|v|v| |]; cbn [filter no_width hyps_of flat_map app]; fold (hyps_of l); fold (hyps_of (filter no_width l)); rewrite ?IH; reflexivity. }
  assert (UF : Forall usable (filter no_width l)). { apply Forall_forall. intros x K. apply filter_In in K. rewrite Forall_forall in U. apply U. tauto. }
  pose proof (main_eq e l [] U (or_introl eq_refl) L) as E1. pose proof (main_eq e (filter no_width l) [] UF (or_introl eq_refl)) as E2. rewrite EH in E2. specialize (E2 L).
  rewrite app_nil_r in E1, E2. rewrite E1, E2.
  assert (S : forall s t, (forall z, set_width z s = set_width z t) -> forall z, set_width z (apply e (filter no_width l) s) = set_width z (apply e l t)).
  { clear. induction l as [|o l IH]; intros s t H z; [apply H|]. specialize (fun x y (K : forall z, set_width z x = set_width z y) => IH x y K z).
    destruct s, t. pose proof (H 0%Z) as H0. cbn in H0. injection H0 as -> -> -> -> -> -> -> ->.
    destruct o as [f [w|]|f|v|v|v|v|v| |]; unfold apply in *; cbn [filter no_width fold_left apply1]; apply IH; reflexivity. }
  specialize (S start start (fun z => eq_refl) 0%Z). destruct (apply e (filter no_width l) start) as [a1 a2 a3 a4 a5 a6 a7 a8 a9], (apply e l start) as [b1 b2 b3 b4 b5 b6 b7 b8 b9].
  cbn in S. injection S as -> -> -> -> -> -> -> ->. reflexivity.
Qed.
Print Assumptions C120_width_refuted.
(** The output is made before an input is found missing, and before an input of the same name is read. *)
Theorem C120_emptied_refuted :
  main plain [B "-h"; B "a"; B "ctm"; B "-h"; B "none"; B "ctm"; B "-o"; B "x"; B "-m"; B "meth1"] = Ok ([Create (B "x"); Open (B "a")], false) /\
  exists c, main plain [B "-h"; B "a"; B "ctm"; B "-h"; B "b"; B "ctm"; B "-o"; B "b"; B "-m"; B "meth1"] = Ok ([Create (B "b"); Open (B "a"); Open (B "b"); Combine c], true).
Proof. split; [vm_compute; reflexivity|eexists; vm_compute; reflexivity]. Qed.
Print Assumptions C120_emptied_refuted.
(** Names with blanks are not told apart in the first line of putative hits. *)
Theorem C120_blank_refuted : exists a b, a <> b /\ header a = header b /\ length a >= 2 /\ length b >= 2.
Proof. exists [B "a b"; B "c"], [B "a"; B "b c"]. split; [discriminate|]. split; [vm_compute; reflexivity|]. split; cbn; lia. Qed.
Print Assumptions C120_blank_refuted.

(** ** Cases *)
Definition some_options : list option_ :=
  [Alpha (B "-1"); Hypothesis_ (B "a.ctm") (Some (B "ctm")); Output (B "x"); UseTimes; Hypothesis_ (B "b.ctm") (Some (B "ctm")); Width (B "80"); Vote VMeth1; Output (B "y"); Vote VPutat].
Example options_case : Forall usable some_options /\ ignored some_options [B "z"; B "-h"] /\ length (hyps_of some_options) <= 50 /\ complete some_options (B "y") VPutat.
Proof.
  assert (D : forall c r, c <> 45%N -> no_dash (c :: r)) by (intros c r K r' E; congruence).
  split; [|split; [|split]].
  - repeat constructor; cbn; try (apply D; discriminate); intros x [= <-]; apply D; discriminate.
  - right. split.
    + intros k f K. assert (K2 : last some_options UseTimes = Hypothesis_ f None) by (rewrite K; apply last_last). discriminate K2.
    + exists (B "z"), [B "-h"]. split; [reflexivity|]. apply D. discriminate.
  - cbn; lia.
  - split; [cbn; lia|]. split; [intros a b; cbn; intuition (subst; reflexivity)|]. split.
    + apply (lv output_of [Alpha (B "-1"); Hypothesis_ (B "a.ctm") (Some (B "ctm")); Output (B "x"); UseTimes; Hypothesis_ (B "b.ctm") (Some (B "ctm")); Width (B "80"); Vote VMeth1] (Output (B "y")) [Vote VPutat]); [reflexivity|].
      intros p [<-|[]]. reflexivity.
    + apply (lv vote_of (removelast some_options) (Vote VPutat) []); [reflexivity|]. intros p [].
Qed.
Example runs_case : exists c t, main plain (flat_map words some_options) = Ok ([Create (B "y"); Write t; Open (B "a.ctm"); Open (B "b.ctm"); Combine c], true) /\ listed t = [B "a.ctm"; B "b.ctm"] /\ c_times c = true /\ c_alpha c = (1 # 2)%Q.
Proof. eexists. eexists. split; [vm_compute; reflexivity|]. repeat split. Qed.
Definition no_output : list option_ := [Alpha (B "-1"); Hypothesis_ (B "a.ctm") (Some (B "ctm")); Hypothesis_ (B "b.ctm") (Some (B "ctm")); Vote VPutat].
Example refused_case : (forall o v, ~ complete no_output o v) /\
  (forall o v, ~ complete (Hypothesis_ (B "c") None :: some_options) o v).
Proof.
  split; intros o v (_ & H2 & H3 & _).
  - assert (K : forall l x, last_value output_of l x -> exists p, In p l /\ output_of p = Some x).
    { intros l x [l1 p l2 y X _]. exists p. split; [apply in_or_app; right; left; reflexivity|exact X]. }
    destruct (K _ _ H3) as (p & I0 & X). cbn [no_output In] in I0. intuition (subst p; discriminate X).
  - specialize (H2 (B "c", B "trn") (B "a.ctm", B "ctm")). cbn in H2. discriminate H2; tauto.
Qed.
Example unknown_case : (exists r, B "-x" = 45%N :: r) /\ ~ In (B "-x") (map B option_words) /\ (forall v, B "meth2" <> B (vote_word v)).
Proof. split; [eexists; reflexivity|]. split; [vm_compute; intuition discriminate|]. intros v. destruct v; vm_compute; discriminate. Qed.
Example nothing_case : let l := [Hypothesis_ (B "a") None; Hypothesis_ (B "b") None; Output (B "x"); Vote VMeth1] in
  main plain (flat_map words l) = Ok ([], true) /\ exists a, In a (hyps_of l) /\ snd a <> B "ctm".
Proof. split; [vm_compute; reflexivity|]. exists (B "a", B "trn"). split; [left; reflexivity|]. vm_compute. discriminate. Qed.
