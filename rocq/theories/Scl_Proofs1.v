(** Proofs about the command line of sclite: the variables. *)
From Coq Require Import String.
From Coq Require Import List ZArith NArith Arith Bool Lia.
From Verif Require Store_Model Store_Proofs.
From Verif Require Import Base Sgml_Model Scl_Model Scl_Spec.
Import ListNotations.
Local Open Scope list_scope.
Local Open Scope res_scope.

Lemma same_iff a b : same a b = true <-> a = b.
Proof. unfold same. apply Store_Proofs.str_eqb_spec. Qed.
Lemma same_dec a b : same a b = if list_eq_dec N.eq_dec a b then true else false.
Proof. destruct (list_eq_dec N.eq_dec a b) as [->|D]; [apply same_iff; reflexivity|]. destruct (same a b) eqn:E; [apply same_iff in E; congruence|reflexivity]. Qed.
Lemma is_word_same w n : is_word w n = same w (B n).
Proof. symmetry. apply same_dec. Qed.
Lemma dash_iff s : dash s = true <-> exists r, s = 45%N :: r.
Proof. destruct s as [|c r]; cbn [dash]; [split; [discriminate|intros (r & K); discriminate]|]. rewrite N.eqb_eq. split; [intros ->; eexists; reflexivity|intros (r' & [= -> _]); reflexivity]. Qed.
Lemma no_dash_false s : no_dash s -> dash s = false.
Proof. intros H. destruct (dash s) eqn:E; [|reflexivity]. apply dash_iff in E. destruct E as (r & ->). destruct (H r eq_refl). Qed.

(** ** Words of reports *)
Lemma since_none_snoc ws w : since_none (ws ++ [w]) = if is_word w "none" then [] else since_none ws ++ [w].
Proof.
  induction ws as [|a ws IH]; cbn [app since_none existsb].
  - rewrite orb_false_r. destruct (is_word w "none"); reflexivity.
  - rewrite existsb_app. cbn [existsb]. rewrite IH. destruct (is_word w "none"); rewrite ?orb_false_r, ?orb_true_r; [reflexivity|].
    destruct (is_word a "none" || existsb _ ws); [reflexivity|reflexivity].
Qed.
Lemma asked_snoc names ws w : asked names (ws ++ [w]) = if is_word w "none" then false else xorb (asked names ws) (existsb (is_word w) names).
Proof.
  unfold asked. rewrite since_none_snoc. destruct (is_word w "none"); [reflexivity|]. rewrite filter_app, app_length, Nat.odd_add. f_equal. cbn [filter].
  destruct (existsb (is_word w) names); reflexivity.
Qed.
Lemma names_same w l : existsb (is_word w) l = existsb (fun n => same w (B n)) l.
Proof. induction l as [|n k IH]; [reflexivity|]. cbn [existsb]. rewrite is_word_same, IH. reflexivity. Qed.
Ltac each w tac := repeat match goal with |- context [same w ?x] => let E := fresh in destruct (same w x) eqn:E; [apply same_iff in E; subst w; tac|] end.
Lemma report_word_b w s r : b_ (report_word w s) (BRep r) = if is_word w "none" then false else xorb (b_ s (BRep r)) (existsb (is_word w) (rnames r)).
Proof.
  rewrite names_same, is_word_same. unfold report_word, flip.
  each w ltac:(destruct s as [f ? ? ? ?]; destruct r; vm_compute; try reflexivity; destruct (f _); reflexivity).
  destruct r; cbn [rnames existsb];
    repeat match goal with H : same w ?x = false |- context [same w ?y] => change (same w y) with (same w x); rewrite H; clear H end; cbn [orb]; rewrite xorb_false_r; reflexivity.
Qed.
Lemma conf_word_b w s r : b_ (conf_word w s) (BConf r) = if is_word w "none" then false else xorb (b_ s (BConf r)) (existsb (is_word w) (cnames r)).
Proof.
  rewrite names_same, is_word_same. unfold conf_word, flip.
  each w ltac:(destruct s as [f ? ? ? ?]; destruct r; vm_compute; try reflexivity; destruct (f _); reflexivity).
  destruct r; cbn [cnames existsb];
    repeat match goal with H : same w ?x = false |- context [same w ?y] => change (same w y) with (same w x); rewrite H; clear H end; cbn [orb]; rewrite xorb_false_r; reflexivity.
Qed.
(** the other variables stay *)
Definition other_b (s s' : st) (P : bv -> Prop) : Prop := (forall x, P x -> b_ s' x = b_ s x) /\ s_ s' = s_ s /\ feedback s' = feedback s /\ width s' = width s /\ hyps s' = hyps s.
Definition not_rep (x : bv) : Prop := forall r, x <> BRep r.
Definition not_conf (x : bv) : Prop := forall r, x <> BConf r.
Lemma setb_other y v s x : x <> y -> b_ (setb y v s) x = b_ s x.
Proof. intros H. cbn [b_ setb]. destruct (bv_dec x y); [contradiction|reflexivity]. Qed.
Lemma setb_same y v s : b_ (setb y v s) y = v.
Proof. cbn [b_ setb]. destruct (bv_dec y y); [reflexivity|contradiction]. Qed.
Lemma report_word_other w s : other_b s (report_word w s) not_rep.
Proof.
  unfold report_word, flip. assert (R : other_b s s not_rep) by (repeat split).
  each w ltac:(cbn [orb]; split; [intros x K; rewrite ?setb_other by apply K; try reflexivity; destruct x; try reflexivity; destruct (K _ eq_refl)|repeat split]).
  exact R.
Qed.
Lemma conf_word_other w s : other_b s (conf_word w s) not_conf.
Proof.
  unfold conf_word, flip. assert (R : other_b s s not_conf) by (repeat split).
  each w ltac:(cbn [orb]; split; [intros x K; rewrite ?setb_other by apply K; try reflexivity; destruct x; try reflexivity; destruct (K _ eq_refl)|repeat split]).
  exact R.
Qed.
Lemma other_trans s s1 s2 P : other_b s s1 P -> other_b s1 s2 P -> other_b s s2 P.
Proof. intros (A1 & A2 & A3 & A4 & A5) (B1 & B2 & B3 & B4 & B5). split; [intros x H; rewrite B1, A1 by exact H; reflexivity|]. repeat split; congruence. Qed.
Lemma fold_reports l ws s : (forall r, b_ s (BRep r) = asked (rnames r) ws) ->
  let s' := fold_left (fun s w => report_word w s) l s in (forall r, b_ s' (BRep r) = asked (rnames r) (ws ++ l)) /\ other_b s s' not_rep.
Proof.
  revert ws s. induction l as [|w l IH]; intros ws s H; cbn [fold_left]; cbv zeta.
  - rewrite app_nil_r. split; [exact H|repeat split].
  - destruct (IH (ws ++ [w]) (report_word w s)) as [A1 A2].
    { intros r. rewrite report_word_b, asked_snoc, H. reflexivity. }
    split; [intros r; rewrite A1, <- app_assoc; reflexivity|]. apply (other_trans _ _ _ _ (report_word_other w s) A2).
Qed.
Lemma fold_confs l ws s : (forall r, b_ s (BConf r) = asked (cnames r) ws) ->
  let s' := fold_left (fun s w => conf_word w s) l s in (forall r, b_ s' (BConf r) = asked (cnames r) (ws ++ l)) /\ other_b s s' not_conf.
Proof.
  revert ws s. induction l as [|w l IH]; intros ws s H; cbn [fold_left]; cbv zeta.
  - rewrite app_nil_r. split; [exact H|repeat split].
  - destruct (IH (ws ++ [w]) (conf_word w s)) as [A1 A2].
    { intros r. rewrite conf_word_b, asked_snoc, H. reflexivity. }
    split; [intros r; rewrite A1, <- app_assoc; reflexivity|]. apply (other_trans _ _ _ _ (conf_word_other w s) A2).
Qed.
Definition stops (rest : list (list N)) : Prop := match rest with [] => True | w :: _ => dash w = true end.
Lemma word_loop_fold (g : str -> st -> st) f l rest s : (forall w s, f w s = Ok (g w s)) -> Forall no_dash l -> stops rest ->
  word_loop f (l ++ rest) s = Ok (fold_left (fun s w => g w s) l s, rest).
Proof.
  intros G H R. revert s. induction H as [|w l Hw _ IH]; intros s; cbn [app word_loop fold_left].
  - destruct rest as [|x r]; cbn [word_loop]; [reflexivity|]. cbn [stops] in R. rewrite R. reflexivity.
  - rewrite (no_dash_false w Hw). cbn [negb]. rewrite G. cbn [rbind]. apply IH.
Qed.

(** ** Snoc *)
Lemma last_snoc {A} (f : option_ -> option A) l o : last_of f (l ++ [o]) = match f o with Some x => Some x | None => last_of f l end.
Proof. unfold last_of. rewrite fold_left_app. reflexivity. Qed.
Lemma value_snoc l o w : value (l ++ [o]) w = match o with Set_ s v => if setting_dec s w then Some v else value l w | _ => value l w end.
Proof. unfold value. rewrite last_snoc. destruct o; try reflexivity. destruct (setting_dec s w); reflexivity. Qed.
Lemma on_snoc l o w : on (l ++ [o]) w = on l w || match o with Flag s => if flag_dec s w then true else false | _ => false end.
Proof. unfold on. rewrite existsb_app. cbn [existsb]. rewrite orb_false_r. reflexivity. Qed.
Lemma directed_snoc l o : directed (l ++ [o]) = directed l || match o with Reports _ | Confidence _ | Flag PipeOut => true | _ => false end.
Proof. unfold directed. rewrite existsb_app. cbn [existsb]. rewrite orb_false_r. reflexivity. Qed.
Lemma odd_snoc l o a : odd_times (l ++ [o]) a = xorb (odd_times l a) match o with Segment x _ _ => if algorithm_dec x a then true else false | _ => false end.
Proof.
  unfold odd_times. rewrite filter_app, app_length, Nat.odd_add. f_equal. cbn [filter]. destruct o; try reflexivity. destruct (algorithm_dec a0 a); reflexivity.
Qed.
Lemma reports_snoc l o : report_words (l ++ [o]) = report_words l ++ match o with Reports w => w | _ => [] end.
Proof. unfold report_words. rewrite flat_map_app. cbn [flat_map]. rewrite app_nil_r. reflexivity. Qed.
Lemma confs_snoc l o : conf_words (l ++ [o]) = conf_words l ++ match o with Confidence w => w | _ => [] end.
Proof. unfold conf_words. rewrite flat_map_app. cbn [flat_map]. rewrite app_nil_r. reflexivity. Qed.
Lemma hyps_snoc l o : hyps_of (l ++ [o]) = hyps_of l ++ hyp_of o.
Proof. unfold hyps_of. rewrite flat_map_app. cbn [flat_map]. rewrite app_nil_r. reflexivity. Qed.
Definition ascii_of (l : list option_) : bool := existsb (fun o => match o with Segment _ _ k => k | _ => false end) l.
Lemma ascii_snoc l o : ascii_of (l ++ [o]) = ascii_of l || match o with Segment _ _ k => k | _ => false end.
Proof. unfold ascii_of. rewrite existsb_app. cbn [existsb]. rewrite orb_false_r. reflexivity. Qed.
Definition c1 (l : list option_) : bool := fst (fst (chars_of l)).
Definition c2 (l : list option_) : bool := snd (fst (chars_of l)).
Definition c3 (l : list option_) : bool := snd (chars_of l).

(** ** The variables *)
Definition bspec (l : list option_) (x : bv) : bool :=
  match x with
  | BCase => on l CaseSensitive | BDiff => on l UseDiff | BFrag => on l Fragments | BOptDel => on l OptionalDeletions | BPipeOut => on l PipeOut
  | BPipeIn => on l PipeIn | BTime => on l TimeAlign | BChar => c1 l | BNoAscii => c2 l | BDelHyp => c3 l | BRedRef => fst (reduce_of l) | BRedHyp => snd (reduce_of l)
  | BAlgo1 => odd_times l Algo1 | BAlgo2 => odd_times l Algo2 | BAsciiToo => ascii_of l | BFbSet => some (value l Level) | BOutSet => directed l
  | BRep r => asked (rnames r) (report_words l) | BConf c => asked (cnames c) (conf_words l)
  end.
Definition sspec (l : list option_) (y : sv) : option (list N) :=
  match y with
  | SRef => ref_of l | SRefFmt => last_of (fun o => match o with Reference _ fm => fm | _ => None end) l | SId => value l Id | SDir => value l Directory
  | SName => value l Name | SLexicon => last_of (fun o => match o with Segment _ x _ => Some x | _ => None end) l | SWwl => value l Weights | SLm => value l LanguageModel
  | SEnc => last_of (fun o => match o with Encoding n _ => encoding n | _ => None end) l
  | SProf => last_of (fun o => match o with Encoding _ (Some w) => profile w | _ => None end) l
  end.
Definition mk (h : list N * list N * list N) : hyp := {| h_file := fst (fst h); h_fmt := snd (fst h); h_title := snd h |}.
Definition number (o : option (list N)) (d : Z) : Z := match o with Some w => atoi w | None => d end.
Record inv (l : list option_) (s : st) : Prop := {
  v_b : forall x, b_ s x = bspec l x;
  v_s : forall y, s_ s y = sspec l y;
  v_f : feedback s = number (value l Level) 1;
  v_w : width s = number (value l Width) 1000;
  v_h : hyps s = map mk (hyps_of l) }.
Lemma inv_start : inv [] start.
Proof. split; try reflexivity; intros []; try reflexivity; destruct r + destruct c; reflexivity. Qed.
