(** Proofs about the command line of sc_stats. *)
From Coq Require Import String.
From Coq Require Import List ZArith NArith Arith Bool Lia.
From Verif Require Store_Model Store_Proofs.
From Verif Require Import Base Sgml_Model Stc_Model Stc_Spec.
Import ListNotations.
Local Open Scope list_scope.
Local Open Scope res_scope.

Lemma same_iff a b : same a b = true <-> a = b.
Proof. unfold same. apply Store_Proofs.str_eqb_spec. Qed.
Lemma same_dec a b : same a b = if word_dec a b then true else false.
Proof. destruct (word_dec a b) as [->|D]; [apply same_iff; reflexivity|]. destruct (same a b) eqn:E; [apply same_iff in E; congruence|reflexivity]. Qed.
Lemma dash_iff s : dash s = true <-> exists r, s = 45%N :: r.
Proof. destruct s as [|c r]; cbn [dash]; [split; [discriminate|intros (r & K); discriminate]|]. rewrite N.eqb_eq. split; [intros ->; eexists; reflexivity|intros (r' & [= -> _]); reflexivity]. Qed.
Lemma no_dash_false s : no_dash s -> dash s = false.
Proof. intros H. destruct (dash s) eqn:E; [|reflexivity]. apply dash_iff in E. destruct E as (r & ->). destruct (H r eq_refl). Qed.

(** ** Mentions *)
Definition hasr {A} (l : list (option A)) : bool := existsb (fun y => match y with None => true | _ => false end) l.
Lemma hasr_app {A} (a b : list (option A)) : hasr (a ++ b) = hasr a || hasr b.
Proof. apply existsb_app. Qed.
Lemma since_snoc_some {A} (l : list (option A)) x : since (l ++ [Some x]) = since l ++ [x].
Proof.
  induction l as [|[y|] l IH]; cbn [app since existsb]; [reflexivity| |exact IH]. fold (hasr (l ++ [Some x])) (hasr l). rewrite hasr_app. cbn [hasr existsb]. rewrite orb_false_r, IH.
  destruct (hasr l); reflexivity.
Qed.
Lemma since_snoc_none {A} (l : list (option A)) : since (l ++ [None]) = [].
Proof.
  induction l as [|[y|] l IH]; cbn [app since existsb]; [reflexivity| |exact IH]. fold (hasr (l ++ [@None A])). rewrite hasr_app. cbn [hasr existsb]. rewrite orb_true_r. exact IH.
Qed.
Lemma switched_some n base l w : switched n base (l ++ [Some w]) = xorb (switched n base l) (if word_dec w (B n) then true else false).
Proof.
  unfold switched. fold (hasr (l ++ [Some w])) (hasr l). rewrite hasr_app, since_snoc_some, count_occ_app, Nat.odd_add. cbn [hasr existsb count_occ]. rewrite orb_false_r, xorb_assoc. f_equal. f_equal.
  destruct (word_dec w (B n)); reflexivity.
Qed.
Lemma switched_none n base l : switched n base (l ++ [None]) = base.
Proof. unfold switched. fold (hasr (l ++ [@None (list N)])). rewrite hasr_app, since_snoc_none. cbn. rewrite orb_true_r. destruct base; reflexivity. Qed.
Ltac each w := repeat match goal with |- context [same w ?x] => let E := fresh in destruct (same w x) eqn:E; [apply same_iff in E; subst w|] end.
Lemma neq_false w x : same w x = false -> word_dec w x = word_dec w x -> (if word_dec w x then true else false) = false.
Proof. intros H _. rewrite <- same_dec. exact H. Qed.
Lemma test_word_ok w f t l : f t = switched (test_name t) (std4 t) l -> test_word w f t = switched (test_name t) (std4 t) (l ++ [reset_at "std4" w]).
Proof.
  intros H. unfold reset_at. destruct (word_dec w (B "std4")) as [->|D].
  - rewrite switched_none. destruct t; reflexivity.
  - rewrite switched_some, <- H, <- same_dec. clear H. assert (F : same w (B "std4") = false) by (rewrite same_dec; destruct (word_dec w (B "std4")); [contradiction|reflexivity]).
    unfold test_word. rewrite F. clear D F. unfold flip_test. destruct t; cbn [test_name]; each w; cbn [test_dec test_rec test_rect]; try reflexivity; vm_compute; destruct (f _); reflexivity.
Qed.
Lemma rep_word_ok w f r l : f r = switched (rep_name r) false l -> rep_word w f r = switched (rep_name r) false (l ++ [reset_at "none" w]).
Proof.
  intros H. unfold reset_at. destruct (word_dec w (B "none")) as [->|D].
  - rewrite switched_none. destruct r; reflexivity.
  - rewrite switched_some, <- H, <- same_dec. clear H. assert (F : same w (B "none") = false) by (rewrite same_dec; destruct (word_dec w (B "none")); [contradiction|reflexivity]).
    unfold rep_word. rewrite F. clear D F. unfold flip_rep. destruct r; cbn [rep_name]; each w; cbn [rep_dec rep_rec rep_rect]; try reflexivity; vm_compute; destruct (f _); reflexivity.
Qed.
Definition only_range (g : graph) : bool := match g with GRange => true | _ => false end.
Lemma graph_word_ok w f g l : f g = switched (graph_name g) (only_range g) l -> graph_word w f g = switched (graph_name g) (only_range g) (l ++ [Some w]).
Proof.
  intros H. rewrite switched_some, <- H, <- same_dec. clear H.
  unfold graph_word. unfold flip_graph. destruct g; cbn [graph_name]; each w; cbn [graph_dec graph_rec graph_rect]; try reflexivity; vm_compute; destruct (f _); reflexivity.
Qed.
Lemma tests_ok ws : forall f l t, f t = switched (test_name t) (std4 t) l -> fold_left (fun f w => test_word w f) ws f t = switched (test_name t) (std4 t) (l ++ map (reset_at "std4") ws).
Proof. induction ws as [|w ws IH]; intros f l t H; cbn [fold_left map]; [rewrite app_nil_r; exact H|]. change (?a :: ?b) with ([a] ++ b). rewrite app_assoc. apply IH. apply test_word_ok. exact H. Qed.
Lemma reps_ok ws : forall f l t, f t = switched (rep_name t) false l -> fold_left (fun f w => rep_word w f) ws f t = switched (rep_name t) false (l ++ map (reset_at "none") ws).
Proof. induction ws as [|w ws IH]; intros f l t H; cbn [fold_left map]; [rewrite app_nil_r; exact H|]. change (?a :: ?b) with ([a] ++ b). rewrite app_assoc. apply IH. apply rep_word_ok. exact H. Qed.
Lemma graphs_ok ws : forall f l t, f t = switched (graph_name t) (only_range t) l -> fold_left (fun f w => graph_word w f) ws f t = switched (graph_name t) (only_range t) (l ++ map Some ws).
Proof. induction ws as [|w ws IH]; intros f l t H; cbn [fold_left map]; [rewrite app_nil_r; exact H|]. change (?a :: ?b) with ([a] ++ b). rewrite app_assoc. apply IH. apply graph_word_ok. exact H. Qed.

(** ** The loop *)
Definition apply1 (o : option_) (s : st) : st :=
  match o with
  | Alignments l => set_files (files s ++ l) s
  | PipeIn => set_pipein s
  | Level v => set_feedback (atoi v) s
  | Directory v => set_dir v s
  | Name v => set_name v s
  | Description v => set_desc v s
  | Width v => set_width (atoi v) s
  | Verbose => set_verbose s
  | UnifiedReport => set_unified s
  | Tests ws => set_tests (fold_left (fun f w => test_word w f) ws (tests s)) s
  | Reports ws => set_reps (fold_left (fun f w => rep_word w f) ws (reps s)) s
  | Graphs ws => set_graphs (fold_left (fun f w => graph_word w f) ws (graphs s)) s
  | Works => set_unified (set_tests std4 (set_graphs only_range s))
  end.
Definition clean (rest : list str) : Prop := match rest with [] => True | w :: _ => dash w = true end.
Definition open_ended (o : option_) : Prop := match o with Alignments _ | Tests _ | Reports _ | Graphs _ => True | _ => False end.
Lemma word_loop_ok l rest : Forall no_dash l -> clean rest -> word_loop (l ++ rest) = (l, rest).
Proof.
  intros H C. induction H as [|w l W H IH]; cbn [app word_loop]; [destruct rest as [|w r]; [reflexivity|]; cbn [clean] in C; cbn [word_loop]; rewrite C; reflexivity|].
  rewrite (no_dash_false w W), IH. reflexivity.
Qed.
Lemma list_arg_ok f l rest s : l <> [] -> Forall no_dash l -> clean rest -> list_arg f (l ++ rest) s = Ok (f l s, rest).
Proof. intros N H C. unfold list_arg. rewrite (word_loop_ok l rest H C). destruct l; [destruct (N eq_refl)|reflexivity]. Qed.
Lemma step_ok o rest s : usable o -> (open_ended o -> clean rest) -> (length (files (apply1 o s)) <= 40)%nat ->
  exists w r, words o = w :: r /\ dash w = true /\ step w (r ++ rest) s = Ok (apply1 o s, rest).
Proof.
  intros U C L. destruct o as [l| |v|v|v|v|v| | |l|l|l| ]; cbn [words usable open_ended apply1] in *; eexists; eexists; (split; [reflexivity|]); (split; [reflexivity|]); try reflexivity; specialize (C I); destruct U as [U1 U2].
  - change (step (B "-a") (l ++ rest) s) with (files_arg (l ++ rest) s). unfold files_arg. rewrite (word_loop_ok l rest U2 C). cbn [set_files files] in L. rewrite app_length in L.
    destruct l as [|f l]; [destruct (U1 eq_refl)|]. cbn [app]. inversion U2 as [|? ? V1 V2]; subst. rewrite (no_dash_false f V1).
    destruct (Nat.ltb_spec 40 (length (files s) + length (f :: l))) as [K|_]; [lia|reflexivity].
  - change (step (B "-t") (l ++ rest) s) with (list_arg (fun ws s => set_tests (fold_left (fun f w => test_word w f) ws (tests s)) s) (l ++ rest) s). apply list_arg_ok; assumption.
  - change (step (B "-r") (l ++ rest) s) with (list_arg (fun ws s => set_reps (fold_left (fun f w => rep_word w f) ws (reps s)) s) (l ++ rest) s). apply list_arg_ok; assumption.
  - change (step (B "-g") (l ++ rest) s) with (list_arg (fun ws s => set_graphs (fold_left (fun f w => graph_word w f) ws (graphs s)) s) (l ++ rest) s). apply list_arg_ok; assumption.
Qed.
Definition apply (l : list option_) (s : st) : st := fold_left (fun s o => apply1 o s) l s.
Lemma apply_files l s : files (apply l s) = files s ++ alignments l.
Proof.
  revert s. induction l as [|o l IH]; intros s; [symmetry; apply app_nil_r|]. unfold apply, alignments in *. cbn [fold_left flat_map]. rewrite IH, app_assoc. f_equal.
  destruct o; cbn [apply1]; rewrite ?app_nil_r; reflexivity.
Qed.
Lemma words_dash o : exists w r, words o = w :: r /\ dash w = true.
Proof. destruct o; eexists; eexists; (split; [reflexivity|reflexivity]). Qed.
Definition stops (l : list option_) (tail : list str) : Prop := match tail with [] => True | w :: _ => dash w = true \/ forall k o, l = k ++ [o] -> ~ open_ended o end.
Lemma stops_cons o l tail : stops (o :: l) tail -> stops l tail.
Proof. destruct tail as [|w r]; [exact (fun K => K)|]. intros [K|K]; [left; exact K|]. right. intros k p E. apply (K (o :: k) p). rewrite E. reflexivity. Qed.
Lemma fits_next o l tail : stops (o :: l) tail -> open_ended o -> clean (flat_map words l ++ tail).
Proof.
  intros T O. destruct l as [|p l].
  - cbn [flat_map app]. destruct tail as [|w r]; [exact I|]. destruct T as [K|K]; [exact K|]. destruct (K [] o eq_refl O).
  - cbn [flat_map]. destruct (words_dash p) as (w & r & E & D). rewrite E. exact D.
Qed.
Lemma loop_ok l : forall tail s fuel, Forall usable l -> stops l tail -> (length (files s ++ alignments l) <= 40)%nat -> (length (flat_map words l ++ tail) <= fuel)%nat ->
  exists fuel', (length tail <= fuel')%nat /\ loop fuel (flat_map words l ++ tail) s = loop fuel' tail (apply l s).
Proof.
  induction l as [|o l IH]; intros tail s fuel U T L F.
  - exists fuel. split; [exact F|reflexivity].
  - inversion U as [|? ? U1 U2]; subst. rewrite <- apply_files in L. change (apply (o :: l) s) with (apply l (apply1 o s)) in L |- *. rewrite apply_files in L.
    assert (L1 : (length (files (apply1 o s)) <= 40)%nat) by (rewrite app_length in L; lia).
    destruct (step_ok o (flat_map words l ++ tail) s U1 (fits_next o l tail T) L1) as (w & r & E & D & S1).
    cbn [flat_map] in F |- *. rewrite E in F |- *. rewrite <- app_assoc in F |- *. cbn [app] in F |- *. cbn [length] in F. destruct fuel as [|k]; [lia|].
    cbn [loop]. rewrite D, S1. cbn [rbind]. apply IH; [exact U2|exact (stops_cons _ _ _ T)|exact L|]. rewrite app_length in F. lia.
Qed.
Lemma ignored_stops l tail : ignored l tail -> stops l tail /\ match tail with [] => True | w :: _ => dash w = false end.
Proof.
  intros [->|((k & o & -> & O) & w & r & -> & W)]; [split; exact I|]. split; [|apply no_dash_false; exact W]. right. intros k' o' E. apply app_inj_tail in E. destruct E as [_ <-].
  intros K. destruct o; contradiction.
Qed.
Lemma loop_all l tail : l <> [] -> Forall usable l -> ignored l tail -> (length (alignments l) <= 40)%nat -> proc_args (flat_map words l ++ tail) = Ok (apply l start).
Proof.
  intros N U G L. unfold proc_args. destruct (ignored_stops l tail G) as [T D]. destruct (loop_ok l tail start _ U T L (le_n _)) as (k & _ & E).
  assert (NE : flat_map words l ++ tail <> []). { destruct l as [|o l]; [destruct (N eq_refl)|]. cbn [flat_map]. destruct (words_dash o) as (w & r & -> & _). discriminate. }
  destruct (flat_map words l ++ tail); [destruct (NE eq_refl)|]. rewrite E. destruct tail as [|w r]; [destruct k; reflexivity|]. destruct k; cbn [loop]; rewrite D; reflexivity.
Qed.

(** ** The values *)
Lemma value_fold {A} (f : option_ -> option A) (l : list option_) (d : A) : value f d l (fold_left (fun a o => match f o with Some x => x | None => a end) l d).
Proof.
  induction l as [|o l IH] using rev_ind; [right; split; [intros p []|reflexivity]|]. rewrite fold_left_app. cbn [fold_left]. destruct (f o) as [x|] eqn:E.
  - left. apply (lv f l o [] x E). intros p [].
  - destruct IH as [H|[H H2]].
    + left. inversion H as [l1 p l2 x X1 X2 E1 E2]. rewrite <- app_assoc. cbn [app]. constructor; [exact X1|]. intros q K. apply in_app_or in K. destruct K as [K|[<-|[]]]; [apply X2; exact K|exact E].
    + right. split; [|exact H2]. intros p K. apply in_app_or in K. destruct K as [K|[<-|[]]]; [apply H; exact K|exact E].
Qed.
Ltac field := match goal with |- forall s, _ => idtac end; let l := fresh "l" in let o := fresh "o" in idtac.
Lemma apply_field {A B0} (p : st -> A) (f : option_ -> option B0) (inj : B0 -> A) (H : forall o s, p (apply1 o s) = match f o with Some x => inj x | None => p s end) l s :
  p (apply l s) = fold_left (fun a o => match f o with Some x => inj x | None => a end) l (p s).
Proof. revert s. induction l as [|o l IH]; intros s; [reflexivity|]. unfold apply in *. cbn [fold_left]. rewrite IH, H. reflexivity. Qed.
Lemma name_value l : value name_of (B "Ensemble") l (name (apply l start)).
Proof. rewrite (apply_field name name_of (fun x => x)); [apply value_fold|]. intros o s. destruct o; reflexivity. Qed.
Lemma desc_value l : value desc_of [] l (desc (apply l start)).
Proof. rewrite (apply_field desc desc_of (fun x => x)); [apply value_fold|]. intros o s. destruct o; reflexivity. Qed.
Lemma dir_value l : value dir_of None l (dir (apply l start)).
Proof. rewrite (apply_field dir dir_of (fun x => x)); [apply value_fold|]. intros o s. destruct o; reflexivity. Qed.
Lemma width_value l : value width_of 100%Z l (width (apply l start)).
Proof. rewrite (apply_field width width_of (fun x => x)); [apply value_fold|]. intros o s. destruct o; reflexivity. Qed.
Lemma formula_value l s : formula (apply l s) = formula s.
Proof. revert s. induction l as [|o l IH]; intros s; [reflexivity|]. unfold apply in *. cbn [fold_left]. rewrite IH. destruct o; reflexivity. Qed.
Lemma verbose_value l s : verbose (apply l s) = true <-> verbose s = true \/ In Verbose l.
Proof. revert s. induction l as [|o l IH]; intros s; [cbn; tauto|]. unfold apply in *. cbn [fold_left In]. rewrite IH. destruct o; cbn [apply1 verbose set_verbose]; intuition (try discriminate; try congruence). Qed.
Lemma unified_value l s : unified (apply l s) = true <-> unified s = true \/ wants_unified l.
Proof.
  unfold wants_unified. revert s. induction l as [|o l IH]; intros s; [cbn; tauto|]. unfold apply in *. cbn [fold_left In]. rewrite IH.
  destruct o; cbn [apply1 unified set_unified]; intuition (try discriminate; try congruence).
Qed.
Lemma pipe_value l s : pipein (apply l s) = if existsb (fun o => match o with PipeIn => true | _ => false end) l then Some true else pipein s.
Proof.
  revert s. induction l as [|o l IH]; intros s; [reflexivity|]. unfold apply in *. cbn [fold_left existsb]. rewrite IH. destruct o; cbn [apply1 pipein set_pipein orb]; try reflexivity.
  destruct (existsb _ l); reflexivity.
Qed.
Lemma mentions_gen l : forall s a b c,
  (forall t, tests s t = switched (test_name t) (std4 t) a) -> (forall g, graphs s g = switched (graph_name g) (only_range g) b) -> (forall r, reps s r = switched (rep_name r) false c) ->
  (forall t, tests (apply l s) t = switched (test_name t) (std4 t) (a ++ test_mentions l)) /\
  (forall g, graphs (apply l s) g = switched (graph_name g) (only_range g) (b ++ graph_mentions l)) /\
  (forall r, reps (apply l s) r = switched (rep_name r) false (c ++ rep_mentions l)).
Proof.
  induction l as [|o l IH]; intros s a b c HA HB HC; [cbn [test_mentions graph_mentions rep_mentions flat_map]; rewrite !app_nil_r; auto|].
  change (apply (o :: l) s) with (apply l (apply1 o s)). unfold test_mentions, graph_mentions, rep_mentions. cbn [flat_map]. rewrite !app_assoc. apply IH; intros x; destruct o; cbn [apply1]; rewrite ?app_nil_r; try apply HA; try apply HB; try apply HC.
  - apply tests_ok. apply HA.
  - rewrite switched_none. reflexivity.
  - apply graphs_ok. apply HB.
  - rewrite switched_none. reflexivity.
  - apply reps_ok. apply HC.
Qed.
Lemma mentions_all l : (forall t, tests (apply l start) t = wants_test l t) /\ (forall g, graphs (apply l start) g = wants_graph l g) /\ (forall r, reps (apply l start) r = wants_rep l r).
Proof. exact (mentions_gen l start [] [] [] (fun t => eq_refl) (fun t => eq_refl) (fun t => eq_refl)). Qed.

(** ** The run *)
Lemma root_ok l : root_of l (out_root (apply l start)).
Proof.
  unfold out_root. pose proof (name_value l) as N. pose proof (dir_value l) as D. destruct (same (name (apply l start)) (B "-")) eqn:E.
  - apply same_iff in E. rewrite E in N |- *. apply r_out. exact N.
  - assert (NE : name (apply l start) <> B "-") by (intros K; apply same_iff in K; congruence). destruct (dir (apply l start)) as [d|].
    + rewrite <- app_assoc. apply r_dir; assumption.
    + apply r_here; assumption.
Qed.
Lemma file_ok s x : file_of (out_root s) x (out_name s x).
Proof.
  unfold out_name. destruct (same (B "-") (out_root s)) eqn:E; [left|right].
  - apply same_iff in E. symmetry in E. split; [exact E|exact E].
  - split; [|reflexivity]. intros K. symmetry in K. apply same_iff in K. congruence.
Qed.
Lemma Forall2_map_r {A B0} (P : A -> B0 -> Prop) (f : A -> B0) l : (forall x, In x l -> P x (f x)) -> Forall2 P l (map f l).
Proof. induction l as [|x l IH]; intros H; [constructor|]. cbn [map]. constructor; [apply H; left; reflexivity|]. apply IH. intros y K. apply H. right. exact K. Qed.
Lemma filter_ext' {A} (f g : A -> bool) l : (forall x, f x = g x) -> filter f l = filter g l.
Proof. intros H. induction l as [|x l IH]; [reflexivity|]. cbn [filter]. rewrite H, IH. reflexivity. Qed.
Lemma test_event_ok l t : test_done l (out_root (apply l start)) (desc (apply l start)) t (test_event (apply l start) t).
Proof.
  destruct t; cbn [test_event]; try apply td_seg; rewrite formula_value; (apply td; [discriminate| | |apply file_ok]).
  all: try (rewrite verbose_value; cbn; intuition discriminate).
  all: pose proof (unified_value l start) as K; cbn [unified start] in K; destruct (unified (apply l start)); cbn [negb]; intuition discriminate.
Qed.
Lemma graph_event_ok l g : graph_done (out_root (apply l start)) (desc (apply l start)) g (graph_event (apply l start) g).
Proof. unfold graph_event. rewrite formula_value. destruct g; try apply gd_det; (apply gd; [discriminate|apply file_ok]). Qed.
Lemma rep_event_ok l r : rep_done l (out_root (apply l start)) (desc (apply l start)) r (rep_event (apply l start) r).
Proof. destruct r; cbn [rep_event]; try (apply rd; discriminate). apply rd_prn. apply width_value. Qed.
Lemma any_iff s : (any_test s = true <-> exists t, tests s t = true) /\ (any_graph s = true <-> exists t, graphs s t = true) /\ (any_rep s = true <-> exists t, reps s t = true).
Proof.
  unfold any_test, any_graph, any_rep. rewrite !existsb_exists. repeat split; intros (t & K); try (destruct K as [_ K]; exists t; exact K); exists t; (split; [destruct t; cbn; tauto|exact K]).
Qed.
Lemma not_true b : b <> true -> b = false.
Proof. destruct b; [contradiction|reflexivity]. Qed.
Lemma idle_iff l : any_test (apply l start) || any_graph (apply l start) || any_rep (apply l start) = false <-> idle l.
Proof.
  destruct (mentions_all l) as (M1 & M2 & M3). destruct (any_iff (apply l start)) as (A1 & A2 & A3). rewrite !orb_false_iff. unfold idle. split.
  - intros ((K1 & K2) & K3). repeat split; intros x; apply not_true; intros H.
    + rewrite <- M1 in H. rewrite (proj2 A1 (ex_intro _ x H)) in K1. discriminate K1.
    + rewrite <- M2 in H. rewrite (proj2 A2 (ex_intro _ x H)) in K2. discriminate K2.
    + rewrite <- M3 in H. rewrite (proj2 A3 (ex_intro _ x H)) in K3. discriminate K3.
  - intros (K1 & K2 & K3). repeat split; apply not_true; intros H.
    + apply A1 in H. destruct H as (t & H). rewrite M1, K1 in H. discriminate H.
    + apply A2 in H. destruct H as (t & H). rewrite M2, K2 in H. discriminate H.
    + apply A3 in H. destruct H as (t & H). rewrite M3, K3 in H. discriminate H.
Qed.
Lemma run_ok l det : sensible l -> exists ev ok, run_multi det (apply l start) = Ok (ev, ok) /\ does l det ev ok.
Proof.
  intros SE. destruct (mentions_all l) as (M1 & M2 & M3). destruct (any_iff (apply l start)) as (A1 & A2 & _). pose proof (unified_value l start) as UV. cbn [unified start] in UV.
  set (s := apply l start) in *. unfold run_multi.
  assert (UD : exists u, unified_done l (out_root s) (desc s) u /\
    (if unified s then if any_test s || any_graph s then Ok [Unified (filter (fun t => match t with TSeg => false | _ => tests s t end) test_order) (desc s) (out_name s "stats") (match dir s with Some d => d | None => [] end)] else Undef else Ok []) = Ok u).
  { destruct (unified s) eqn:EU.
    - assert (W : wants_unified l) by (destruct (proj1 UV eq_refl) as [K|K]; [discriminate K|exact K]).
      assert (AN : any_test s || any_graph s = true). { apply orb_true_iff. destruct (SE W) as [(t & K)|(t & K)]; [left; apply A1; exists t; rewrite M1; exact K|right; apply A2; exists t; rewrite M2; exact K]. }
      rewrite AN. eexists. split; [|reflexivity]. right. split; [exact W|]. exists (out_name s "stats"), (match dir s with Some d => d | None => [] end). split; [apply file_ok|]. split.
      + pose proof (dir_value l) as D. fold s in D. destruct (dir s); [left|right]; [exact D|split; [exact D|reflexivity]].
      + unfold test_order. cbn [filter]. rewrite !M1. reflexivity.
    - exists []. split; [|reflexivity]. left. split; [|reflexivity]. intros W. assert (K : false = true) by (apply UV; right; exact W). discriminate K. }
  destruct UD as (u & UD & ->). cbn [rbind].
  assert (RE : same (B "-") (out_root s) = if word_dec (out_root s) (B "-") then true else false).
  { rewrite same_dec. destruct (word_dec (B "-") (out_root s)), (word_dec (out_root s) (B "-")); congruence. }
  set (g := map (graph_event s) (filter (graphs s) [GRange; GGrange; GGrange2])).
  set (make := graphs s GDet && negb (same (B "-") (out_root s))).
  set (d := if make then [graph_event s GDet] else []).
  assert (GD : Forall2 (graph_done (out_root s) (desc s)) (filter (wants_graph l) ([GRange; GGrange; GGrange2] ++ if word_dec (out_root s) (B "-") then [] else [GDet])) (g ++ d)).
  { rewrite <- (filter_ext' (graphs s) (wants_graph l) _ M2). rewrite filter_app. apply Forall2_app; [apply Forall2_map_r; intros x _; apply graph_event_ok|].
    unfold d, make. rewrite RE. destruct (word_dec (out_root s) (B "-")); cbn [negb]; rewrite ?andb_false_r, ?andb_true_r; [constructor|]. cbn [filter]. destruct (graphs s GDet); [|constructor].
    constructor; [apply graph_event_ok|constructor]. }
  assert (TD : Forall2 (test_done l (out_root s) (desc s)) (filter (wants_test l) test_order) (map (test_event s) (filter (tests s) test_order))).
  { rewrite <- (filter_ext' (tests s) (wants_test l) _ M1). apply Forall2_map_r. intros x _. apply test_event_ok. }
  assert (RD : Forall2 (rep_done l (out_root s) (desc s)) (filter (wants_rep l) rep_order) (map (rep_event s) (filter (reps s) rep_order))).
  { rewrite <- (filter_ext' (reps s) (wants_rep l) _ M3). apply Forall2_map_r. intros x _. apply rep_event_ok. }
  assert (MK : make = true <-> wants_graph l GDet = true /\ out_root s <> B "-").
  { unfold make. rewrite RE, M2, andb_true_iff. destruct (word_dec (out_root s) (B "-")); cbn [negb]; intuition discriminate. }
  exists (map (test_event s) (filter (tests s) test_order) ++ u ++ (g ++ d) ++ if negb (make && negb det) then map (rep_event s) (filter (reps s) rep_order) else []), (negb (make && negb det)).
  split; [destruct (make && negb det); cbn [negb]; rewrite <- ?app_assoc, ?app_nil_r; reflexivity|].
  exists (out_root s), (desc s), (map (test_event s) (filter (tests s) test_order)), u, (g ++ d), (map (rep_event s) (filter (reps s) rep_order)).
  split; [apply root_ok|]. split; [apply desc_value|]. split; [exact TD|]. split; [exact UD|]. split; [exact GD|]. split; [exact RD|]. split; [|reflexivity].
  destruct make, det; cbn; intuition discriminate.
Qed.
Lemma pipe_in l : existsb (fun o => match o with PipeIn => true | _ => false end) l = true <-> In PipeIn l.
Proof. rewrite existsb_exists. split; [intros (o & K & E); destruct o; try discriminate E; exact K|intros K; exists PipeIn; split; [exact K|reflexivity]]. Qed.
Lemma main_eq loads det l tail : l <> [] -> Forall usable l -> ignored l tail -> (length (alignments l) <= 40)%nat -> In PipeIn l ->
  main loads det (flat_map words l ++ tail) =
  if loads then if any_test (apply l start) || any_graph (apply l start) || any_rep (apply l start) then run_multi det (apply l start) else Ok ([], true) else Exit.
Proof. intros N U G L P. unfold main. rewrite (loop_all l tail N U G L). cbn [rbind]. rewrite pipe_value, (proj2 (pipe_in l) P). destruct loads; reflexivity. Qed.
Lemma main_nopipe loads det l tail : l <> [] -> Forall usable l -> ignored l tail -> (length (alignments l) <= 40)%nat -> ~ In PipeIn l -> main loads det (flat_map words l ++ tail) = Undef.
Proof.
  intros N U G L P. unfold main. rewrite (loop_all l tail N U G L). cbn [rbind]. rewrite pipe_value. rewrite (not_true _ (fun K => P (proj1 (pipe_in l) K))). reflexivity.
Qed.
Lemma main_bad loads det l w rest : Forall usable l -> (length (alignments l) <= 40)%nat -> dash w = true -> (forall s, step w rest s = Exit) -> main loads det (flat_map words l ++ w :: rest) = Exit.
Proof.
  intros U L D H. unfold main, proc_args. destruct (loop_ok l (w :: rest) start _ U (or_introl D) L (le_n _)) as (k & K & E).
  destruct (flat_map words l ++ w :: rest) eqn:Q; [reflexivity|]. rewrite E. cbn [length] in K. destruct k as [|k]; [lia|]. cbn [loop]. rewrite D, H. reflexivity.
Qed.
