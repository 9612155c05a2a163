(** Proofs about the labelled utterance report of one system: the calls make the rows. *)
From Coq Require Import String List ZArith NArith Arith Bool QArith Lia.
From Verif Require Import Base Store_Model Sgml_Model Rpg_Model Rpg_Spec Sig_Proofs2 Uni_Spec Uni_Proofs1 Uni_Proofs2 Order_Model Order_Spec Summ_Model Summ_Spec Summ_Proofs1 Lur_Model Lut_Model Lut_Spec Lut_Proofs.
Import ListNotations.
Local Open Scope res_scope.
Local Open Scope nat_scope.

Lemma values_ok : forall c vs, values c = Ok vs -> vs = about shown c.
Proof.
  intros [[|r] e] vs H; unfold values in H; cbn [Nat.eqb negb] in H.
  - destruct e as [|e]; cbn [Nat.eqb negb] in H; apply ok_inj in H; subst vs; reflexivity.
  - next H. apply ok_inj in H. subst vs. apply number_ok in E. subst a. reflexivity.
Qed.
Lemma about_two : forall p c, length (about p c) = 2.
Proof. intros p [[|r] [|e]]; reflexivity. Qed.
Lemma each_values : forall {A} (f : A -> nat * nat) l vs, each (fun x => values (f x)) l = Ok vs -> concat vs = flat_map (fun x => about shown (f x)) l.
Proof.
  intros A f l vs H. apply each_forall2 in H. induction H as [|x y l ys H H1 IH]; [reflexivity|]. cbn [concat flat_map]. rewrite IH, (values_ok _ _ H). reflexivity.
Qed.
Lemma two_len : forall {A B} (f : A -> list B) l, (forall x, length (f x) = 2) -> length (flat_map f l) = 2 * length l.
Proof. intros A B f l H. induction l as [|x l IH]; [reflexivity|]. cbn [flat_map length]. rewrite app_length, H, IH. lia. Qed.
Lemma numbers_ok : forall i name vals o, length (i_locs i) < 17 -> length vals = 2 * length (i_locs i) -> flush (row_fmt (i_locs i)) (name :: vals) = Ok o ->
  [o] = calls (numbers_row i name vals) /\ good_row (numbers_row i name vals).
Proof.
  intros i name vals o L V H. unfold numbers_row. rewrite <- spell_row in H. apply flush_full; [apply columns_good, number_letters|rewrite columns_length; lia| |exact H].
  rewrite visible_two by (intros s; split; discriminate). cbn [length]. unfold str, Rpg_Model.str, Store_Model.str in *. lia.
Qed.
Lemma speaker_ok : forall i k ops, length (i_locs i) < 17 -> length (i_cells i) = length (i_locs i) -> speaker_row i k = Ok ops ->
  ops = calls (speaker shown i k) /\ good_row (speaker shown i k).
Proof.
  intros i k ops L C H. unfold speaker_row in H. next H. next H. apply ok_inj in H. subst ops.
  apply (each_values (fun col => nth k col (0, 0))) in E. rewrite E in E0.
  apply numbers_ok in E0; [|exact L|rewrite two_len by (intros x; apply about_two); lia]. destruct E0 as (E1 & E2). unfold speaker. rewrite under_calls, <- E1. split; [reflexivity|apply under_good, E2].
Qed.
Lemma speakers_ok : forall i ks body, length (i_locs i) < 17 -> length (i_cells i) = length (i_locs i) -> each (speaker_row i) ks = Ok body ->
  concat body = flat_map calls (map (speaker shown i) ks) /\ Forall good_row (map (speaker shown i) ks).
Proof.
  intros i ks body L C H. apply each_forall2 in H. induction H as [|k y ks ys H H1 (IH1 & IH2)]; [split; [reflexivity|constructor]|].
  destruct (speaker_ok _ _ _ L C H) as (S1 & S2). cbn [concat map flat_map]. rewrite IH1, S1. split; [reflexivity|constructor; assumption].
Qed.

(** ** Totals *)
Lemma sums_fold : forall l a b, fold_left (fun a c => (fst a + fst c, snd a + snd c)) l (a, b) = (a + list_sum (map fst l), b + list_sum (map snd l)).
Proof.
  induction l as [|[x y] l IH]; intros a b; cbn [fold_left map fst snd]; [cbn; f_equal; lia|]. rewrite IH. f_equal; cbn [list_sum fold_right]; unfold list_sum; cbn [fold_right]; lia.
Qed.
Definition stat_of (root : Q -> Q) (k : nat) (cs : list (nat * nat) * (stat * stat)) : Q * Q :=
  let st := snd cs in
  match k with
  | O => (nq (words_of (fst cs)), percent (errors_of (fst cs)) (words_of (fst cs)))
  | 1 => (s_mean (fst st), s_mean (snd st))
  | 2 => (root (s_var (fst st)), root (s_var (snd st)))
  | _ => (s_median (fst st), s_median (snd st))
  end.
Definition total_values (k : nat) (t : totals) : res (list str) := let* a := Lut_Model.whole (t_ref t k) in let* b := Lut_Model.number (t_err t k) in Ok [a; b].
Lemma label_ok : forall qs root col t, qsort_contract qs -> label_totals qs root col = Ok t ->
  exists st, label_stats col st /\ forall k vs, total_values k t = Ok vs -> vs = total shown (stat_of root k (col, st)).
Proof.
  intros qs root col t Q H. unfold label_totals, column1, sums in H. rewrite sums_fold in H. cbn [plus] in H.
  destruct (calc_double_ok qs (map (fun c => nq (fst c)) (filter present1 col)) Q) as (a & A1 & A2).
  destruct (calc_double_ok qs (map (fun c => pct_of (snd c) (fst c)) (filter present1 col)) Q) as (b & B1 & B2).
  rewrite A1, B1 in H. cbn [rbind] in H. next H. apply ok_inj in H. subst t. rename a0 into e. exists (a, b). split; [split; [exact A2|exact B2]|].
  intros k vs V. unfold total_values in V. next V. next V. apply ok_inj in V. subst vs. apply whole_ok in E0. apply number_ok in E1. subst a0 a1. unfold total.
  destruct k as [|[|[|k]]]; cbn [t_ref t_err stat_of fst snd]; try reflexivity.
  rewrite f_round1 in E. match type of E with (if ?b then _ else _) = _ => destruct b; [|discriminate E] end. apply ok_inj in E. subst e. cbn [Lut_Spec.number shown]. rewrite rnd_twice. reflexivity.
Qed.
Lemma labels_ok : forall qs root cols ts, qsort_contract qs -> each (label_totals qs root) cols = Ok ts ->
  exists sts, Forall2 label_stats cols sts /\ forall k vs, each (total_values k) ts = Ok vs -> concat vs = flat_map (fun cs => total shown (stat_of root k cs)) (combine cols sts).
Proof.
  intros qs root cols ts Q H. apply each_forall2 in H. induction H as [|col t cols ts H H1 (sts & S1 & S2)].
  - exists []. split; [constructor|]. intros k vs V. cbn [each] in V. apply ok_inj in V. subst vs. reflexivity.
  - destruct (label_ok _ _ _ _ Q H) as (st & T1 & T2). exists (st :: sts). split; [constructor; assumption|]. intros k vs V. cbn [each] in V. next V. next V. apply ok_inj in V. subst vs.
    cbn [concat combine flat_map]. rewrite (T2 _ _ E), (S2 _ _ E0). reflexivity.
Qed.
Lemma f2_length : forall {A B} (R : A -> B -> Prop) l m, Forall2 R l m -> length l = length m.
Proof. intros A B R l m H. induction H; cbn [length]; congruence. Qed.
Lemma total_ok : forall qs root i ts sts k name o, length (i_locs i) < 17 -> length (i_cells i) = length (i_locs i) ->
  Forall2 label_stats (i_cells i) sts -> (forall k vs, each (total_values k) ts = Ok vs -> concat vs = flat_map (fun cs => total shown (stat_of root k cs)) (combine (i_cells i) sts)) ->
  each (label_totals qs root) (i_cells i) = Ok ts -> total_row i ts name k = Ok o ->
  [o] = calls (totals_row shown i name (stat_of root k) sts) /\ good_row (totals_row shown i name (stat_of root k) sts).
Proof.
  intros qs root i ts sts k name o L C F S T H. unfold total_row in H. next H. apply (S k) in E. rewrite E in H. unfold totals_row.
  apply numbers_ok in H; [exact H|exact L|]. rewrite two_len by (intros x; reflexivity). rewrite combine_length, <- (f2_length _ _ _ F). lia.
Qed.

(** ** The legend *)
Lemma rm_lf_ok : forall fuel s, length s <= fuel -> unbroken s (rm_lf fuel s) /\ length (rm_lf fuel s) <= length s.
Proof.
  induction fuel as [|k IH]; intros [|c s] L; cbn [length] in L; try lia; try (split; [constructor|cbn; lia]). cbn [rm_lf].
  destruct (N.eqb_spec c 47) as [->|H]; cbn [negb].
  - destruct s as [|d r]; [split; [constructor; [intros r K; discriminate K|constructor]|cbn; lia]|]. destruct (N.eqb_spec d 47) as [->|H].
    + destruct (IH r) as (A & B); [cbn in L; lia|]. split; [constructor; exact A|cbn [length]; unfold str, Rpg_Model.str, Store_Model.str in *; lia].
    + destruct (IH (d :: r)) as (A & B); [lia|]. split; [constructor; [intros x K; congruence|exact A]|cbn [length] in *; unfold str, Rpg_Model.str, Store_Model.str in *; lia].
  - destruct (IH s) as (A & B); [lia|]. split; [constructor; [intros x K; congruence|exact A]|cbn [length] in *; unfold str, Rpg_Model.str, Store_Model.str in *; lia].
Qed.
Lemma three_good : good_cols three.
Proof. repeat split; try discriminate. repeat constructor; cbn; auto 10. Qed.
Lemma legend_good : forall a b c bf af, length a < 2000 -> length b < 2000 -> length c < 2000 -> good_row {| s_cols := three; s_vals := [a; b; c]; s_before := bf; s_after := af |}.
Proof.
  intros a b c bf af A B C. apply good_mk; [exact three_good|cbn; lia|reflexivity| |intros _; repeat constructor; discriminate]. apply Forall_cons; [exact A|apply Forall_cons; [exact B|apply Forall_cons; [exact C|apply Forall_nil]]].
Qed.
Definition legend (l : str * str) : op := Row (bytes "ccc") [rm_lf (length (fst l)) (fst l); bytes "->"; snd l].
Definition legends (ls : list (str * str)) : list srow := map (fun td => legend_row (fst td) (snd td)) (combine (map (fun l => rm_lf (length (fst l)) (fst l)) ls) (map snd ls)).
Lemma legends_ok : forall ls, Forall (fun l : str * str => length (fst l) < 2000 /\ length (snd l) < 2000) ls ->
  flat_map calls (legends ls) = map legend ls /\ Forall good_row (legends ls).
Proof.
  intros ls H. induction H as [|l ls (A & B) H (IH1 & IH2)]; [split; [reflexivity|constructor]|]. unfold legends in *. cbn [map combine flat_map]. rewrite IH1. split; [reflexivity|].
  constructor; [|exact IH2]. apply legend_good; [|cbn; lia|exact B]. destruct (rm_lf_ok (length (fst l)) (fst l) (le_n _)) as (_ & K). cbn [fst]. unfold str, Rpg_Model.str, Store_Model.str in *. lia.
Qed.
Lemma led_calls : forall c rows, rows <> [] -> flat_map calls (led c rows) = Separation c true :: flat_map calls rows.
Proof. intros c [|r rs] H; [destruct H; reflexivity|reflexivity]. Qed.
Lemma led_good : forall c rows, Forall good_row rows -> Forall good_row (led c rows).
Proof. intros c [|r rs] H; [constructor|]. inversion H. constructor; [apply under_good; assumption|assumption]. Qed.
Lemma plain_good : forall j v, In j [99; 108]%N -> length v < 2000 -> good_row (mkrow [(j, 32%N)] [v]).
Proof.
  intros j v J L. assert (Q : j <> 97%N) by (cbn in J; intuition subst; discriminate). unfold mkrow. apply good_mk.
  - split; [discriminate|]. split; [exact Q|]. split; [constructor; [split; cbn in *; tauto|constructor]|cbn; split; [discriminate|exact I]].
  - cbn. lia.
  - unfold visible. cbn [filter fst]. apply N.eqb_neq in Q. rewrite Q. reflexivity.
  - apply Forall_cons; [exact L|apply Forall_nil].
  - intros K. destruct K. reflexivity.
Qed.

Lemma stray_ok : forall i, null_speaker i = stray i.
Proof.
  intros i. unfold null_speaker, stray. induction (i_cells i) as [|col cs IH]; [reflexivity|]. cbn [existsb]. rewrite IH. f_equal.
  induction col as [|[r [|e]] col IH2]; cbn [existsb]; try reflexivity; rewrite IH2; reflexivity.
Qed.
Lemma cats_ok : forall locs cats o, length locs < 17 -> flush (categ_fmt locs) ([] :: cats) = Ok o ->
  let r := mkrow (columns field_title locs) ([] :: map (fun g => nth g cats []) (seq 0 (runs locs))) in [o] = calls r /\ good_row r.
Proof.
  intros locs cats o L H r. rewrite <- spell_categ in H. assert (S : length (spell (columns field_title locs)) <= 50) by (rewrite columns_length; lia).
  destruct (flush_inv _ _ _ (columns_good _ locs field_letters) S H) as (F & ->). rewrite visible_field. cbn [plus seq map nth]. rewrite <- seq_shift, map_map. split; [reflexivity|].
  unfold r, mkrow. apply good_mk; [apply columns_good, field_letters|lia| | |intros K; destruct K; reflexivity].
  - rewrite visible_field. cbn [length]. rewrite map_length, seq_length. reflexivity.
  - constructor; [cbn; lia|]. inversion F as [|? ? _ F']. subst. apply Forall_forall. intros v Hv. apply in_map_iff in Hv. destruct Hv as (g & <- & _).
    destruct (Nat.ltb_spec g (length cats)) as [K|K]; [|rewrite nth_overflow by exact K; cbn; lia]. rewrite Forall_forall in F'. apply F', nth_In, K.
Qed.
Lemma title_ok : forall locs x vals o, length locs < 17 -> length vals = length locs -> flush (title_fmt locs) (x :: vals) = Ok o ->
  let r := mkrow (columns one_title locs) (x :: vals) in [o] = calls r /\ good_row r.
Proof.
  intros locs x vals o L V H r. rewrite <- spell_title in H. apply flush_full; [apply columns_good, title_letters|rewrite columns_length; lia| |exact H].
  rewrite visible_title. cbn [length]. unfold str, Rpg_Model.str, Store_Model.str in *. lia.
Qed.
Lemma rows_ok : forall qs root i ops, qsort_contract qs -> length (i_title i) < 1900 -> Forall (fun l => length (fst l) < 2000 /\ length (snd l) < 2000) (i_labels i) ->
  length (i_labels i) = length (i_locs i) -> length (i_cells i) = length (i_locs i) -> report_ops qs root i = Ok ops ->
  exists ts sts, Forall2 (fun l t => unbroken (fst l) t) (i_labels i) ts /\ Forall2 label_stats (i_cells i) sts
    /\ ops = flat_map calls (lur_rows shown root i ts sts) /\ Forall good_row (lur_rows shown root i ts sts).
Proof.
  intros qs root i ops Q T LB L1 L2 H. unfold report_ops in H.
  assert (LR : length (row_fmt (i_locs i)) = 1 + 3 * length (i_locs i)) by (rewrite <- spell_row; apply columns_length).
  destruct (Nat.leb_spec 50 (length (row_fmt (i_locs i)))) as [K|K]; [discriminate H|]. cbv zeta in H. assert (L : length (i_locs i) < 17) by lia.
  next H. next H. next H. next H. next H. next H. next H. next H. next H. apply ok_inj in H.
  destruct (labels_ok _ _ _ _ Q E3) as (sts & S1 & S2).
  exists (map (fun l => rm_lf (length (fst l)) (fst l)) (i_labels i)), sts. split; [|split; [exact S1|]].
  { clear. induction (i_labels i) as [|l ls IH]; [constructor|]. constructor; [apply rm_lf_ok; lia|exact IH]. }
  destruct (speakers_ok _ _ _ L L2 E2) as (B1 & B2).
  assert (L3 : length (map fst (i_labels i)) = length (i_locs i)) by (rewrite map_length; exact L1).
  assert (L4 : length (map (fun _ : str * str => bytes " #Wrd %WE") (i_labels i)) = length (i_locs i)) by (rewrite map_length; exact L1).
  destruct (title_ok _ _ _ _ L L3 E0) as (C1 & C2). destruct (title_ok _ _ _ _ L L4 E1) as (D1 & D2).
  destruct (total_ok _ _ _ _ _ _ _ _ L L2 S1 S2 E3 E4) as (F1 & F2). destruct (total_ok _ _ _ _ _ _ _ _ L L2 S1 S2 E3 E5) as (G1 & G2).
  destruct (total_ok _ _ _ _ _ _ _ _ L L2 S1 S2 E3 E6) as (H1 & H2). destruct (total_ok _ _ _ _ _ _ _ _ L L2 S1 S2 E3 E7) as (I1 & I2).
  destruct (legends_ok _ LB) as (J1 & J2). rewrite stray_ok in *. unfold lur_rows.
  assert (X : exists cr, a = flat_map (fun r => calls r ++ [Separation 45%N true]) cr /\ Forall good_row cr
    /\ match i_cats i with [] => [] | cats => [under [45%N] (mkrow (columns field_title (i_locs i)) ([] :: map (fun g => nth g cats []) (seq 0 (runs (i_locs i)))))] end = map (under [45%N]) cr).
  { destruct (i_cats i) as [|c cs].
    - apply ok_inj in E. subst a. exists []. split; [reflexivity|]. split; [constructor|reflexivity].
    - next E. apply ok_inj in E. subst a. destruct (cats_ok _ _ _ L E8) as (X1 & X2). eexists [_]. cbn [flat_map map]. rewrite app_nil_r. change [a8; Separation 45%N true] with ([a8] ++ [Separation 45%N true]). rewrite X1. split; [reflexivity|]. split; [constructor; [exact X2|constructor]|reflexivity]. }
  destruct X as (cr & X1 & X2 & X3). rewrite X3. clear X3. split.
  - subst ops. rewrite !flat_map_app. rewrite led_calls by (intros Z; apply app_eq_nil in Z; destruct Z; discriminate). rewrite flat_map_app.
    match goal with |- context [flat_map calls (map ?f (combine ?x ?y))] => change (flat_map calls (map f (combine x y))) with (flat_map calls (legends (i_labels i))) end. rewrite J1, B1.
    assert (Tot : flat_map calls [under [61%N] (totals_row shown i (bytes "Set Sum/Avg") (stat_of root 0) sts); under [45%N] (totals_row shown i (if stray i then bytes "Mean +" else bytes "Mean") (stat_of root 1) sts);
      totals_row shown i (if stray i then bytes "StdDev +" else bytes "StdDev") (stat_of root 2) sts; under [32%N] (totals_row shown i (bytes "Median") (stat_of root 3) sts)] = [Separation 61%N true; a4; Separation 45%N true; a5; a6; Separation 32%N true; a7]).
    { transitivity ([Separation 61%N true] ++ [a4] ++ [Separation 45%N true] ++ [a5] ++ [a6] ++ [Separation 32%N true] ++ [a7]); [|reflexivity]. rewrite F1, G1, H1, I1. reflexivity. }
    match goal with |- context [flat_map calls [under [61%N] ?x; ?y; ?z; ?w]] => change (flat_map calls [under [61%N] x; y; z; w]) with (flat_map calls [under [61%N] (totals_row shown i (bytes "Set Sum/Avg") (stat_of root 0) sts); under [45%N] (totals_row shown i (if stray i then bytes "Mean +" else bytes "Mean") (stat_of root 1) sts);
      totals_row shown i (if stray i then bytes "StdDev +" else bytes "StdDev") (stat_of root 2) sts; under [32%N] (totals_row shown i (bytes "Median") (stat_of root 3) sts)]) end. rewrite Tot. clear Tot.
    assert (Y : forall rest, [Separation 45%N true] ++ a ++ rest = flat_map calls (map (under [45%N]) cr) ++ Separation 45%N true :: rest).
    { intros rest. subst a. clear. induction cr as [|r cr IH]; [reflexivity|]. cbn [flat_map map]. rewrite under_calls. cbn [app]. f_equal. rewrite <- !app_assoc. f_equal. cbn [app] in *. rewrite IH. reflexivity. }
    assert (Tit : forall x y, [x] = [a0] -> [y] = [a1] -> [Separation 45%N true; a0; a1] = Separation 45%N true :: [x] ++ [y] ++ []) by (intros x y U V; injection U as <-; injection V as <-; reflexivity).
    match goal with |- context [flat_map calls [under [45%N] ?x; ?y]] => replace (flat_map calls [under [45%N] x; y]) with [Separation 45%N true; a0; a1] by (apply Tit; symmetry; [exact C1|exact D1]) end. clear Tit.
    transitivity ([Row (bytes "c") [bytes "System: " ++ i_title i]] ++ [Separation 32%N true] ++ map legend (i_labels i) ++ [Separation 32%N false; Row (bytes "ccc") [[]; []; []]] ++ [Separation 45%N true] ++ a ++
      ([a0; a1] ++ flat_map calls (map (speaker shown i) (seq 0 (length (i_names i)))) ++ [Separation 61%N true; a4; Separation 45%N true; a5; a6; Separation 32%N true; a7]
      ++ (if stray i then [Separation 45%N true; Row (bytes "l") [bytes "Note:  * Speaker Has no reference word tokens.  Number of incorrect words presented"];
                         Row (bytes "l") [bytes "       + Speakers with no reference words ignored"]] else []))).
    + cbn [app]. rewrite <- ?app_assoc. cbn [app]. reflexivity.
    + rewrite Y. cbn [flat_map app]. rewrite <- ?app_assoc. cbn [app]. destruct (stray i); reflexivity.
  - repeat (apply Forall_app; split).
    + constructor; [|constructor]. apply plain_good; [cbn; auto|]. rewrite app_length. change (length (bytes "System: ")) with 8. unfold str, Rpg_Model.str, Store_Model.str in *. lia.
    + apply led_good, Forall_app. split; [exact J2|]. constructor; [|constructor]. apply legend_good; cbn; lia.
    + clear - X2. induction X2; constructor; [apply under_good; assumption|assumption].
    + constructor; [apply under_good, C2|]. constructor; [exact D2|constructor].
    + exact B2.
    + constructor; [apply under_good, F2|]. constructor; [apply under_good, G2|]. constructor; [exact H2|]. constructor; [apply under_good, I2|constructor].
    + destruct (stray i); [|constructor]. constructor; [apply under_good, plain_good; [cbn; auto|cbn; lia]|]. constructor; [apply plain_good; [cbn; auto|cbn; lia]|constructor].
Qed.
