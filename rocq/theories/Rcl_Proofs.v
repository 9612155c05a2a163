(** Proofs about the command line of rover. *)
From Coq Require Import String.
From Coq Require Import List ZArith QArith NArith Arith Bool Lia.
From Verif Require Store_Model Store_Proofs.
From Verif Require Import Base Sgml_Model Rcl_Model Rcl_Spec.
Import ListNotations.
Local Open Scope list_scope.
Local Open Scope nat_scope.
Local Open Scope res_scope.

Lemma same_iff a b : same a b = true <-> a = b.
Proof. unfold same. apply Store_Proofs.str_eqb_spec. Qed.
Lemma same_refl a : same a a = true.
Proof. apply same_iff. reflexivity. Qed.
Lemma dash_iff s : dash s = true <-> exists r, s = 45%N :: r.
Proof. destruct s as [|c r]; cbn [dash]; [split; [discriminate|intros (r & K); discriminate]|]. rewrite N.eqb_eq. split; [intros ->; eexists; reflexivity|intros (r' & [= -> _]); reflexivity]. Qed.
Lemma no_dash_false s : no_dash s -> dash s = false.
Proof. intros H. destruct (dash s) eqn:E; [|reflexivity]. apply dash_iff in E. destruct E as (r & ->). destruct (H r eq_refl). Qed.

(** ** The loop *)
Definition set_out (f : str) (s : st) : st :=
  {| hyps := hyps s; feedback := feedback s; width := width s; times := times s; case := case s; out := Some f; alpha := alpha s; null := null s; method := method s |}.
Definition add_hyp (h : str * str) (s : st) : st :=
  {| hyps := hyps s ++ [h]; feedback := feedback s; width := width s; times := times s; case := case s; out := out s; alpha := alpha s; null := null s; method := method s |}.
Definition apply1 (e : env) (o : option_) (s : st) : st :=
  match o with
  | Hypothesis_ f (Some w) => add_hyp (f, w) s
  | Hypothesis_ f None => add_hyp (f, B "trn") s
  | Output f => set_out f s
  | Vote v => set_method (meth_of v) s
  | Alpha v => set_alpha (e_atof e v) s
  | NullConf v => set_null (e_atof e v) s
  | Width v => set_width (atoi v) s
  | Level v => set_feedback (atoi v) s
  | CaseSensitive => set_case s
  | UseTimes => set_times s
  end.
Definition agree (l : list (str * str)) : bool := match l with [] => true | (_, f0) :: r => forallb (fun h => same f0 (snd h)) r end.
Lemma agree_snoc l h : agree (l ++ [h]) = agree l && match l with (_, f0) :: _ => same f0 (snd h) | [] => true end.
Proof. destruct l as [|[a f0] r]; [destruct h; reflexivity|]. cbn [app agree]. rewrite forallb_app. cbn [forallb]. rewrite andb_true_r. reflexivity. Qed.
(** what stands after an option does not look like one of its words *)
Definition clean (rest : list str) : Prop := match rest with [] => True | w :: _ => dash w = true end.
Definition fits (o : option_) (rest : list str) : Prop := match o with Hypothesis_ _ None => clean rest | _ => True end.
Lemma words_dash o : exists w r, words o = w :: r /\ dash w = true.
Proof. destruct o as [f [w|]|f|v|v|v|v|v| |]; eexists; eexists; (split; [reflexivity|reflexivity]). Qed.
Lemma hyp_end (s : st) h : length (hyps s) < 50 -> agree (hyps s) = true ->
  match hyps s ++ [h] with (_, f0) :: _ :: _ => negb (same f0 (snd h)) | _ => false end = negb (agree (hyps s ++ [h])).
Proof.
  intros L A. rewrite agree_snoc, A. cbn [andb]. destruct (hyps s) as [|[a f0] r]; [destruct h; reflexivity|]. cbn [app]. destruct r as [|x r]; cbn [app]; reflexivity.
Qed.
Lemma hyp_arg_some f w rest s : no_dash f -> no_dash w -> length (hyps s) < 50 -> agree (hyps s) = true ->
  hyp_arg (f :: w :: rest) s = if agree (hyps s ++ [(f, w)]) then Ok (add_hyp (f, w) s, rest) else Exit.
Proof.
  intros F W L A. unfold hyp_arg. rewrite (no_dash_false f F), (no_dash_false w W). destruct (Nat.leb_spec 50 (length (hyps s))) as [K|_]; [lia|]. cbn [negb].
  pose proof (hyp_end s (f, w) L A) as K. cbn [snd] in K. rewrite K. destruct (agree (_ ++ _)); reflexivity.
Qed.
Lemma hyp_arg_none f rest s : no_dash f -> clean rest -> length (hyps s) < 50 -> agree (hyps s) = true ->
  hyp_arg (f :: rest) s = if agree (hyps s ++ [(f, B "trn")]) then Ok (add_hyp (f, B "trn") s, rest) else Exit.
Proof.
  intros F W L A. unfold hyp_arg. rewrite (no_dash_false f F). destruct (Nat.leb_spec 50 (length (hyps s))) as [K|_]; [lia|].
  assert (R : match rest with w :: r2 => if negb (dash w) then (w, r2) else (B "trn", rest) | [] => (B "trn", rest) end = (B "trn", rest)).
  { destruct rest as [|w r]; [reflexivity|]. cbn [clean] in W. rewrite W. reflexivity. }
  rewrite R. pose proof (hyp_end s (f, B "trn") L A) as K. cbn [snd] in K. rewrite K. destruct (agree (_ ++ _)); reflexivity.
Qed.
Lemma step_ok e o rest s : usable o -> fits o rest -> length (hyps (apply1 e o s)) <= 50 -> agree (hyps s) = true ->
  exists w r, words o = w :: r /\ dash w = true /\ step e w (r ++ rest) s = if agree (hyps (apply1 e o s)) then Ok (apply1 e o s, rest) else Exit.
Proof.
  intros U F L A. destruct o as [f [w|]|f|v|v|v|v|v| |]; cbn [words usable fits apply1] in *; eexists; eexists; (split; [reflexivity|]); (split; [reflexivity|]); cbn [app].
  - destruct U as [U1 U2]. specialize (U2 _ eq_refl). change (step e (B "-h") (f :: w :: rest) s) with (hyp_arg (f :: w :: rest) s).
    cbn [hyps add_hyp] in *. rewrite app_length in L. cbn [length] in L. apply hyp_arg_some; [exact U1|exact U2|lia|exact A].
  - destruct U as [U1 _]. change (step e (B "-h") (f :: rest) s) with (hyp_arg (f :: rest) s).
    cbn [hyps add_hyp] in *. rewrite app_length in L. cbn [length] in L. apply hyp_arg_none; [exact U1|exact F|lia|exact A].
  - change (step e (B "-o") (f :: rest) s) with (out_arg (f :: rest) s). unfold out_arg. rewrite (no_dash_false f U). cbn [hyps set_out]. rewrite A. reflexivity.
  - change (step e (B "-m") (B (vote_word v) :: rest) s) with (meth_arg (B (vote_word v) :: rest) s). unfold set_method at 1. cbn [hyps]. rewrite A. destruct v; reflexivity.
  - cbn [hyps set_alpha]. rewrite A. reflexivity.
  - cbn [hyps set_null]. rewrite A. reflexivity.
  - cbn [hyps set_width]. rewrite A. reflexivity.
  - cbn [hyps set_feedback]. rewrite A. reflexivity.
  - cbn [hyps set_case]. rewrite A. reflexivity.
  - cbn [hyps set_times]. rewrite A. reflexivity.
Qed.
Definition apply (e : env) (l : list option_) (s : st) : st := fold_left (fun s o => apply1 e o s) l s.
Lemma apply1_hyps e o s : hyps (apply1 e o s) = hyps s ++ hyps_of [o].
Proof. destruct o as [f [w|]|f|v|v|v|v|v| |]; cbn [apply1 hyps_of flat_map app]; rewrite ?app_nil_r; reflexivity. Qed.
Lemma hyps_of_app a b : hyps_of (a ++ b) = hyps_of a ++ hyps_of b.
Proof. apply flat_map_app. Qed.
Lemma apply_hyps e l s : hyps (apply e l s) = hyps s ++ hyps_of l.
Proof.
  revert s. induction l as [|o l IH]; intros s; [symmetry; apply app_nil_r|]. unfold apply in *. cbn [fold_left]. rewrite IH, apply1_hyps, <- app_assoc, <- hyps_of_app. reflexivity.
Qed.
Lemma agree_app a b : agree (a ++ b) = true -> agree a = true.
Proof. destruct a as [|[x f0] r]; [reflexivity|]. cbn [app agree]. rewrite forallb_app. intros K. apply andb_true_iff in K. tauto. Qed.
Definition stops (l : list option_) (tail : list str) : Prop := match tail with [] => True | w :: _ => dash w = true \/ forall k f, l <> k ++ [Hypothesis_ f None] end.
Lemma stops_cons o l tail : stops (o :: l) tail -> stops l tail.
Proof. destruct tail as [|w r]; [exact (fun K => K)|]. intros [K|K]; [left; exact K|]. right. intros k f E. apply (K (o :: k) f). rewrite E. reflexivity. Qed.
Lemma fits_next o l tail : stops (o :: l) tail -> fits o (flat_map words l ++ tail).
Proof.
  intros T. destruct o as [f [w|]|f|v|v|v|v|v| |]; try exact I. cbn [fits]. destruct l as [|p l].
  - cbn [flat_map app]. destruct tail as [|w r]; [exact I|]. destruct T as [K|K]; [exact K|]. destruct (K [] f eq_refl).
  - cbn [flat_map]. destruct (words_dash p) as (w & r & E & D). rewrite E. exact D.
Qed.
Lemma loop_ok e l : forall tail s fuel, Forall usable l -> stops l tail -> length (hyps s ++ hyps_of l) <= 50 -> agree (hyps s) = true -> length (flat_map words l ++ tail) <= fuel ->
  exists fuel', length tail <= fuel' /\ loop fuel e (flat_map words l ++ tail) s = if agree (hyps s ++ hyps_of l) then loop fuel' e tail (apply e l s) else Exit.
Proof.
  induction l as [|o l IH]; intros tail s fuel U T L A F.
  - exists fuel. split; [exact F|]. cbn [hyps_of flat_map app]. rewrite app_nil_r, A. reflexivity.
  - inversion U as [|? ? U1 U2]; subst. change (o :: l) with ([o] ++ l) in L |- *. rewrite hyps_of_app, app_assoc in L |- *. rewrite <- (apply1_hyps e) in L |- *.
    assert (L1 : length (hyps (apply1 e o s)) <= 50) by (rewrite app_length in L; lia).
    destruct (step_ok e o (flat_map words l ++ tail) s U1 (fits_next o l tail T) L1 A) as (w & r & E & D & S1).
    cbn [flat_map app] in F |- *. rewrite E in F |- *. rewrite <- app_assoc in F |- *. cbn [app] in F |- *. cbn [length] in F. destruct fuel as [|k]; [lia|].
    cbn [loop]. rewrite D, S1. destruct (agree (hyps (apply1 e o s))) eqn:A1.
    + cbn [rbind]. destruct (IH tail (apply1 e o s) k U2 (stops_cons _ _ _ T) L A1) as (k' & K1 & K2); [rewrite app_length in F; lia|]. exists k'. split; [exact K1|]. exact K2.
    + exists (length tail). split; [lia|]. cbn [rbind]. destruct (agree (hyps (apply1 e o s) ++ hyps_of l)) eqn:A2; [apply agree_app in A2; congruence|reflexivity].
Qed.
Lemma ignored_stops l tail : ignored l tail -> stops l tail /\ match tail with [] => True | w :: _ => dash w = false end.
Proof. intros [->|(K & w & r & -> & W)]; [split; exact I|]. split; [right; exact K|apply no_dash_false; exact W]. Qed.
Lemma loop_all e l tail : Forall usable l -> ignored l tail -> length (hyps_of l) <= 50 ->
  loop (length (flat_map words l ++ tail)) e (flat_map words l ++ tail) start = if agree (hyps_of l) then Ok (apply e l start) else Exit.
Proof.
  intros U G L. destruct (ignored_stops l tail G) as [T N]. destruct (loop_ok e l tail start _ U T L eq_refl (le_n _)) as (k & _ & E). rewrite E. cbn [hyps start app].
  destruct (agree (hyps_of l)); [|reflexivity]. destruct tail as [|w r]; [destruct k; reflexivity|]. destruct k; cbn [loop]; rewrite N; reflexivity.
Qed.

(** ** The values *)
Lemma value_fold {A} (f : option_ -> option A) (l : list option_) (d : A) : value f d l (fold_left (fun a o => match f o with Some x => x | None => a end) l d).
Proof.
  induction l as [|o l IH] using rev_ind; [right; split; [intros p []|reflexivity]|]. rewrite fold_left_app. cbn [fold_left]. destruct (f o) as [x|] eqn:E.
  - left. apply (lv f l o [] x E). intros p [].
  - destruct IH as [H|[H H2]].
    + left. inversion H as [l1 p l2 x X1 X2 E1 E2]. rewrite <- app_assoc. cbn [app]. constructor; [exact X1|]. intros q K. apply in_app_or in K. destruct K as [K|[<-|[]]]; [apply X2; exact K|exact E].
    + right. split; [|exact H2]. intros p K. apply in_app_or in K. destruct K as [K|[<-|[]]]; [apply H; exact K|exact E].
Qed.
Lemma last_fold {A} (f : option_ -> option A) (l : list option_) x : fold_left (fun a o => match f o with Some y => Some y | None => a end) l None = Some x <-> last_value f l x.
Proof.
  split.
  - revert x. induction l as [|o l IH] using rev_ind; intros x H; [discriminate H|]. rewrite fold_left_app in H. cbn [fold_left] in H. destruct (f o) as [y|] eqn:E.
    + injection H as ->. apply (lv f l o [] x E). intros p [].
    + specialize (IH _ H). inversion IH as [l1 p l2 z X1 X2 E1 E2]. subst. rewrite <- app_assoc. cbn [app]. constructor; [exact X1|]. intros q K. apply in_app_or in K.
      destruct K as [K|[<-|[]]]; [apply X2; exact K|exact E].
  - intros H. inversion H as [l1 o l2 y X1 X2 E1 E2]. subst. rewrite fold_left_app. cbn [fold_left]. rewrite X1. clear - X2. induction l2 as [|p l2 IH]; [reflexivity|].
    cbn [fold_left]. rewrite (X2 p (or_introl eq_refl)). apply IH. intros q K. apply X2. right. exact K.
Qed.
Lemma apply_alpha e l s : alpha (apply e l s) = fold_left (fun a o => match alpha_of e o with Some x => x | None => a end) l (alpha s).
Proof. revert s. induction l as [|o l IH]; intros s; [reflexivity|]. unfold apply in *. cbn [fold_left]. rewrite IH. f_equal. destruct o as [f [w|]|f|v|v|v|v|v| |]; reflexivity. Qed.
Lemma apply_null e l s : null (apply e l s) = fold_left (fun a o => match null_of e o with Some x => x | None => a end) l (null s).
Proof. revert s. induction l as [|o l IH]; intros s; [reflexivity|]. unfold apply in *. cbn [fold_left]. rewrite IH. f_equal. destruct o as [f [w|]|f|v|v|v|v|v| |]; reflexivity. Qed.
Lemma apply_out e l s : out (apply e l s) = fold_left (fun a o => match output_of o with Some x => Some x | None => a end) l (out s).
Proof. revert s. induction l as [|o l IH]; intros s; [reflexivity|]. unfold apply in *. cbn [fold_left]. rewrite IH. f_equal. destruct o as [f [w|]|f|v|v|v|v|v| |]; reflexivity. Qed.
Lemma apply_meth e l s m : method s = match m with Some v => meth_of v | None => Null end ->
  method (apply e l s) = match fold_left (fun a o => match vote_of o with Some x => Some x | None => a end) l m with Some v => meth_of v | None => Null end.
Proof.
  revert s m. induction l as [|o l IH]; intros s m H; [exact H|]. unfold apply in *. cbn [fold_left]. apply IH. destruct o as [f [w|]|f|v|v|v|v|v| |]; cbn [apply1 vote_of]; try exact H. reflexivity.
Qed.
Lemma apply_times e l s : times (apply e l s) = true <-> times s = true \/ In UseTimes l.
Proof.
  revert s. induction l as [|o l IH]; intros s; [cbn; tauto|]. unfold apply in *. cbn [fold_left In]. rewrite IH.
  destruct o as [f [w|]|f|v|v|v|v|v| |]; cbn [apply1 times add_hyp set_out set_method set_alpha set_null set_width set_feedback set_case set_times]; intuition (try discriminate; try congruence).
Qed.
Lemma apply_case e l s : case (apply e l s) = true <-> case s = true \/ In CaseSensitive l.
Proof.
  revert s. induction l as [|o l IH]; intros s; [cbn; tauto|]. unfold apply in *. cbn [fold_left In]. rewrite IH.
  destruct o as [f [w|]|f|v|v|v|v|v| |]; cbn [apply1 case add_hyp set_out set_method set_alpha set_null set_width set_feedback set_case set_times]; intuition (try discriminate; try congruence).
Qed.
Lemma agree_iff l : agree l = true <-> forall a b, In a l -> In b l -> snd a = snd b.
Proof.
  destruct l as [|[x f0] r]; [split; [intros _ a b []|reflexivity]|]. cbn [agree]. rewrite forallb_forall. split.
  - intros H. assert (K : forall a, In a ((x, f0) :: r) -> snd a = f0). { intros a [<-|I0]; [reflexivity|]. specialize (H a I0). apply same_iff in H. symmetry. exact H. }
    intros a b Ia Ib. rewrite (K a Ia), (K b Ib). reflexivity.
  - intros H a I0. apply same_iff. exact (H (x, f0) a (or_introl eq_refl) (or_intror I0)).
Qed.

(** ** The run *)
Lemma after_prefix c p t : ~ In c p -> after c (p ++ c :: t) = t.
Proof. induction p as [|x p IH]; intros H; cbn [app after]; [rewrite N.eqb_refl; reflexivity|]. destruct (N.eqb_spec x c) as [->|_]; [destruct H; left; reflexivity|]. apply IH. intros K. apply H. right. exact K. Qed.
Lemma until_prefix c p t : ~ In c p -> until c (p ++ c :: t) = p.
Proof. induction p as [|x p IH]; intros H; cbn [app until]; [rewrite N.eqb_refl; reflexivity|]. destruct (N.eqb_spec x c) as [->|_]; [destruct H; left; reflexivity|]. f_equal. apply IH. intros K. apply H. right. exact K. Qed.
Lemma cut_word w t : ~ In 32%N w -> cut (w ++ 32%N :: t) = w :: cut t.
Proof.
  induction w as [|x w IH]; intros H; [reflexivity|]. cbn [app cut]. destruct (N.eqb_spec x 32) as [->|_]; [destruct H; left; reflexivity|]. rewrite IH; [reflexivity|]. intros K. apply H. right. exact K.
Qed.
Lemma cut_last w : ~ In 32%N w -> cut w = [w].
Proof. induction w as [|x w IH]; intros H; [reflexivity|]. cbn [cut]. destruct (N.eqb_spec x 32) as [->|_]; [destruct H; left; reflexivity|]. rewrite IH; [reflexivity|]. intros K. apply H. right. exact K. Qed.
Lemma names_no_quote b l : Forall plain_name l -> ~ In 34%N (names b l).
Proof.
  revert b. induction l as [|f l IH]; intros b H; [intros []|]. inversion H as [|? ? H1 H2]; subst. cbn [names]. intros K. apply in_app_or in K. destruct K as [K|K].
  - destruct b; [destruct K|]. destruct K as [K|[]]. discriminate K.
  - apply in_app_or in K. destruct K as [K|K]; [destruct H1; contradiction|]. exact (IH false H2 K).
Qed.
Lemma cut_names f l : Forall plain_name (f :: l) -> cut (f ++ names false l) = f :: l.
Proof.
  revert f. induction l as [|g l IH]; intros f H; inversion H as [|? ? H1 H2]; subst.
  - cbn [names]. rewrite app_nil_r. apply cut_last. apply H1.
  - cbn [names app]. rewrite cut_word by apply H1. f_equal. apply IH. exact H2.
Qed.
Lemma header_listed l : l <> [] -> Forall plain_name l -> listed (header l) = l.
Proof.
  intros N H. unfold listed, header. change ([34%N] ++ names true l ++ [34%N; 62%N; 10%N]) with (34%N :: names true l ++ 34%N :: [62%N; 10%N]). rewrite (after_prefix 34%N (B "<input names=")) by (vm_compute; intuition discriminate).
  rewrite (until_prefix 34%N (names true l)) by (apply names_no_quote; exact H). destruct l as [|f l]; [destruct (N eq_refl)|]. cbn [names app]. apply cut_names. exact H.
Qed.
Lemma headed_ok l v : hyps_of l <> [] -> headed l v (match meth_of v with Putat => [Write (header (map fst (hyps_of l)))] | _ => [] end).
Proof.
  intros N. destruct v; cbn [headed meth_of]; try reflexivity. eexists. split; [reflexivity|]. split; [eexists; reflexivity|]. split.
  - unfold header. exists (B "<input names=" ++ [34%N] ++ names true (map fst (hyps_of l)) ++ [34%N]). rewrite <- !app_assoc. reflexivity.
  - apply header_listed. destruct (hyps_of l); [destruct (N eq_refl)|discriminate].
Qed.
Lemma open_all_spec e l : (snd (open_all e l) = true /\ fst (open_all e l) = map Open l /\ forall g, In g l -> e_opens e g = true) \/
  (snd (open_all e l) = false /\ exists l1 f l2, l = l1 ++ f :: l2 /\ fst (open_all e l) = map Open l1 /\ (forall g, In g l1 -> e_opens e g = true) /\ e_opens e f = false).
Proof.
  induction l as [|f l IH]; [left; repeat split; intros g []|]. cbn [open_all]. destruct (e_opens e f) eqn:E.
  - destruct (open_all e l) as [ev b]. cbn [fst snd] in *. destruct IH as [(H1 & H2 & H3)|(H1 & l1 & g & l2 & H2 & H3 & H4 & H5)].
    + left. split; [exact H1|]. split; [rewrite H2; reflexivity|]. intros g [<-|K]; [exact E|apply H3; exact K].
    + right. split; [exact H1|]. exists (f :: l1), g, l2. split; [rewrite H2; reflexivity|]. split; [rewrite H3; reflexivity|]. split; [|exact H5]. intros x [<-|K]; [exact E|apply H4; exact K].
  - right. split; [reflexivity|]. exists [], f, l. repeat split; [intros g []|exact E].
Qed.
Lemma main_eq e l tail : Forall usable l -> ignored l tail -> length (hyps_of l) <= 50 ->
  main e (flat_map words l ++ tail) =
  if agree (hyps_of l) then
    if (length (hyps_of l) <=? 1)%nat then Exit
    else match out (apply e l start) with
         | None => Exit
         | Some o => match method (apply e l start) with
                     | Null => Exit
                     | _ => match hyps_of l with (_, f0) :: _ => Ok (if same f0 (B "ctm") then combine e (apply e l start) o else ([], true)) | [] => Undef end
                     end
         end
  else Exit.
Proof.
  intros U G L. unfold main, proc_args. rewrite (loop_all e l tail U G L). destruct (agree (hyps_of l)); [|reflexivity]. cbn [rbind]. rewrite apply_hyps. cbn [hyps start app].
  destruct (length (hyps_of l) <=? 1)%nat; [reflexivity|]. destruct (out (apply e l start)); [|reflexivity]. destruct (method (apply e l start)); cbn [rbind]; rewrite ?apply_hyps; reflexivity.
Qed.
Lemma combine_does e l o v : 2 <= length (hyps_of l) -> last_value output_of l o -> last_value vote_of l v -> (forall a, In a (hyps_of l) -> snd a = B "ctm") ->
  does e l o v (fst (combine e (apply e l start) o)) (snd (combine e (apply e l start) o)).
Proof.
  intros L HO HV HF. unfold combine. destruct (e_creates e o) eqn:EC; cbn [negb]; [|apply d_create; assumption].
  assert (HM : method (apply e l start) = meth_of v). { rewrite (apply_meth e l start None eq_refl). apply last_fold in HV. rewrite HV. reflexivity. }
  rewrite apply_hyps, HM. cbn [hyps start app].
  assert (HH : headed l v (match meth_of v with Putat => [Write (header (map fst (hyps_of l)))] | _ => [] end)). { apply headed_ok. intros K. rewrite K in L. cbn in L. lia. }
  destruct (open_all_spec e (map fst (hyps_of l))) as [(H1 & H2 & H3)|(H1 & l1 & f & l2 & H2 & H3 & H4 & H5)]; destruct (open_all e (map fst (hyps_of l))) as [ev b]; cbn [fst snd] in *; subst b; cbn [fst snd].
  - subst ev. eapply d_all; [exact HF|exact EC|exact HH|exact H3|]. repeat split; cbn [c_alpha c_null c_times c_case c_inputs c_method].
    + rewrite apply_alpha. apply value_fold.
    + rewrite apply_null. apply value_fold.
    + intros K. apply apply_times in K. destruct K as [K|K]; [discriminate K|exact K].
    + intros K. apply apply_times. right. exact K.
    + intros K. apply apply_case in K. destruct K as [K|K]; [discriminate K|exact K].
    + intros K. apply apply_case. right. exact K.
  - subst ev. rewrite app_nil_r. eapply d_open; [exact HF|exact EC|exact HH|exact H2|exact H4|exact H5].
Qed.
Lemma main_done e l tail o v : Forall usable l -> ignored l tail -> length (hyps_of l) <= 50 -> complete l o v ->
  exists ev b, main e (flat_map words l ++ tail) = Ok (ev, b) /\ does e l o v ev b.
Proof.
  intros U G L (H2 & HF & HO & HV). rewrite (main_eq e l tail U G L). rewrite (proj2 (agree_iff _) HF). destruct (Nat.leb_spec (length (hyps_of l)) 1) as [K|_]; [lia|].
  rewrite apply_out. cbn [out start]. rewrite (proj2 (last_fold output_of l o) HO). rewrite (apply_meth e l start None eq_refl), (proj2 (last_fold vote_of l v) HV).
  destruct (hyps_of l) as [|[x f0] r] eqn:EH; [cbn in H2; lia|]. exists (fst (if same f0 (B "ctm") then combine e (apply e l start) o else ([], true))), (snd (if same f0 (B "ctm") then combine e (apply e l start) o else ([], true))).
  split; [destruct v; cbn [meth_of]; rewrite <- surjective_pairing; reflexivity|]. unfold one_format in HF. rewrite EH in HF. pose proof (fun a H => HF a (x, f0) H (or_introl eq_refl)) as HF1. cbn [snd] in HF1. destruct (same f0 (B "ctm")) eqn:ES.
  - apply same_iff in ES. subst f0. apply combine_does; [rewrite EH; exact H2|exact HO|exact HV|rewrite EH; exact HF1].
  - apply d_other. rewrite EH. intros a Ia K. rewrite (HF1 a Ia) in K. subst f0. rewrite same_refl in ES. discriminate ES.
Qed.
Lemma main_refused e l tail : Forall usable l -> ignored l tail -> length (hyps_of l) <= 50 -> (forall o v, ~ complete l o v) -> main e (flat_map words l ++ tail) = Exit.
Proof.
  intros U G L H. rewrite (main_eq e l tail U G L). destruct (agree (hyps_of l)) eqn:A; [|reflexivity]. destruct (Nat.leb_spec (length (hyps_of l)) 1) as [K|K]; [reflexivity|].
  rewrite apply_out, (apply_meth e l start None eq_refl). destruct (fold_left (fun a o => match output_of o with Some x => Some x | None => a end) l (out start)) as [o|] eqn:EO; [|reflexivity].
  destruct (fold_left (fun a o0 => match vote_of o0 with Some x => Some x | None => a end) l None) as [v|] eqn:EV; [|reflexivity].
  destruct (H o v). split; [lia|]. split; [exact (proj1 (agree_iff _) A)|]. split; apply last_fold; assumption.
Qed.
Lemma main_bad e l w rest : Forall usable l -> length (hyps_of l) <= 50 -> dash w = true -> agree (hyps_of l) = true -> forall z, (forall s, step e w rest s = z) ->
  z = Exit \/ z = Undef -> main e (flat_map words l ++ w :: rest) = match z with Exit => Exit | _ => Undef end.
Proof.
  intros U L D A z H Z. unfold main, proc_args. destruct (loop_ok e l (w :: rest) start _ U (or_introl D) L eq_refl (le_n _)) as (k & K & E). rewrite E. cbn [hyps start app]. rewrite A.
  cbn [length] in K. destruct k as [|k]; [lia|]. cbn [loop]. rewrite D, H. destruct Z as [->| ->]; reflexivity.
Qed.
Lemma main_bad_exit e l w rest : Forall usable l -> length (hyps_of l) <= 50 -> dash w = true -> (forall s, step e w rest s = Exit) -> main e (flat_map words l ++ w :: rest) = Exit.
Proof.
  intros U L D H. destruct (agree (hyps_of l)) eqn:A; [apply (main_bad e l w rest U L D A Exit H); left; reflexivity|].
  unfold main, proc_args. destruct (loop_ok e l (w :: rest) start _ U (or_introl D) L eq_refl (le_n _)) as (k & K & E). rewrite E. cbn [hyps start app]. rewrite A. reflexivity.
Qed.
