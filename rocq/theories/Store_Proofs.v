From Coq Require Import List ZArith NArith Arith Bool String Lia.
From Verif Require Import Base Store_Model Store_Spec.
Import ListNotations.

(** * Strings and maps *)
Lemma str_eqb_spec : forall a b, str_eqb a b = true <-> a = b.
Proof.
  induction a as [|x a IH]; destruct b as [|y b]; cbn [str_eqb]; split; intro H; try discriminate; try reflexivity.
  - apply andb_prop in H as [H1 H2]. apply N.eqb_eq in H1. apply IH in H2. congruence.
  - injection H as -> ->. rewrite N.eqb_refl. apply IH. reflexivity.
Qed.
Lemma str_eqb_refl : forall a, str_eqb a a = true.
Proof. intro. apply str_eqb_spec. reflexivity. Qed.
Lemma str_eqb_neq : forall a b, a <> b -> str_eqb a b = false.
Proof. intros a b H. destruct (str_eqb a b) eqn:E; [|reflexivity]. apply str_eqb_spec in E. contradiction. Qed.
Lemma same_str_eqb : forall a b, same_str a b = str_eqb a b.
Proof.
  intros a b. unfold same_str. destruct (list_eq_dec N.eq_dec a b) as [->|n].
  - symmetry. apply str_eqb_refl.
  - symmetry. apply str_eqb_neq. exact n.
Qed.
Lemma str_eqb_sym : forall a b, str_eqb a b = str_eqb b a.
Proof.
  intros a b. destruct (str_eqb a b) eqn:E.
  - apply str_eqb_spec in E. subst. symmetry. apply str_eqb_refl.
  - symmetry. apply str_eqb_neq. intros ->. rewrite str_eqb_refl in E. discriminate.
Qed.

Lemma massoc_mput : forall V (m : smap V) k v k',
  massoc (mput m k v) k' = if str_eqb k k' then Some v else massoc m k'.
Proof.
  induction m as [|[q w] m IH]; intros k v k'; cbn [mput massoc].
  - reflexivity.
  - destruct (str_eqb q k) eqn:E; cbn [massoc].
    + apply str_eqb_spec in E. subst. destruct (str_eqb k k'); reflexivity.
    + rewrite IH. destruct (str_eqb q k') eqn:E'; [|reflexivity].
      apply str_eqb_spec in E'. subst. rewrite str_eqb_sym, E. reflexivity.
Qed.

(** * Speaker map *)
Lemma split_bar : forall a b c d, no_bar a -> no_bar c -> a ++ 124%N :: b = c ++ 124%N :: d -> a = c /\ b = d.
Proof.
  induction a as [|x a IH]; intros b c d Ha Hc E; destruct c as [|y c]; cbn [app] in E.
  - injection E as ->. auto.
  - injection E as E _. exfalso. apply Hc. left. congruence.
  - injection E as E _. exfalso. apply Ha. left. congruence.
  - injection E as -> E. apply IH in E as [-> ->]; auto.
    + intro H. apply Ha. right. exact H.
    + intro H. apply Hc. right. exact H.
Qed.

Lemma spk_key_inj : forall f c s f' c' s', no_bar f -> no_bar c -> no_bar f' -> no_bar c' ->
  (spk_key f c s = spk_key f' c' s' <-> f = f' /\ c = c' /\ s = s').
Proof.
  intros f c s f' c' s' A B C D. split.
  - unfold spk_key. intro E. apply split_bar in E as [-> E]; auto. apply split_bar in E as [-> ->]; auto.
  - intros (-> & -> & ->). reflexivity.
Qed.

Lemma register_assoc : forall h m f c s,
  Forall (fun g => no_bar (g_file g) /\ no_bar (g_channel g)) h -> no_bar f -> no_bar c ->
  get_ref (fold_left (fun m g => set_sys_ref m (g_file g) (g_channel g) (g_sys g) (g_ref g)) h m) f c s
  = match massoc m (spk_key f c s) with Some v => v | None => first_ref h f c s end.
Proof.
  induction h as [|g h IH]; intros m f c s F Hf Hc; cbn [fold_left first_ref].
  - reflexivity.
  - inversion F as [|? ? [G1 G2] F']; subst. rewrite IH by auto. unfold set_sys_ref.
    assert (E : str_eqb (spk_key (g_file g) (g_channel g) (g_sys g)) (spk_key f c s)
      = same_str (g_file g) f && same_str (g_channel g) c && same_str (g_sys g) s).
    { rewrite !same_str_eqb.
      destruct (str_eqb (spk_key (g_file g) (g_channel g) (g_sys g)) (spk_key f c s)) eqn:E.
      - apply str_eqb_spec in E. apply spk_key_inj in E; auto. destruct E as (-> & -> & ->).
        rewrite !str_eqb_refl. reflexivity.
      - symmetry. apply Bool.not_true_iff_false. intro H.
        apply andb_prop in H as [H H3]. apply andb_prop in H as [H1 H2].
        apply str_eqb_spec in H1. apply str_eqb_spec in H2. apply str_eqb_spec in H3.
        rewrite H1, H2, H3, str_eqb_refl in E. discriminate. }
    destruct (massoc m (spk_key (g_file g) (g_channel g) (g_sys g))) as [v|] eqn:A.
    + destruct (massoc m (spk_key f c s)) as [w|] eqn:B; [reflexivity|].
      rewrite <- E. destruct (str_eqb _ _) eqn:Q; [|reflexivity].
      apply str_eqb_spec in Q. rewrite Q in A. congruence.
    + rewrite massoc_mput, E. destruct (_ && _) eqn:Q.
      * apply str_eqb_spec in E. rewrite E in A. rewrite A. reflexivity.
      * reflexivity.
Qed.

Lemma fields_app : forall a acc r, no_comma a ->
  fields acc (a ++ 44%N :: r) = (rev acc ++ a) :: fields [] r.
Proof.
  induction a as [|x a IH]; intros acc r H; cbn [app fields].
  - rewrite N.eqb_refl, app_nil_r. reflexivity.
  - destruct (N.eqb x 44) eqn:E.
    + apply N.eqb_eq in E. subst. exfalso. apply H. left. reflexivity.
    + rewrite IH by (intro; apply H; right; assumption). cbn [rev]. rewrite <- app_assoc. reflexivity.
Qed.
Lemma fields_end : forall a acc, no_comma a -> fields acc a = [rev acc ++ a].
Proof.
  induction a as [|x a IH]; intros acc H; cbn [fields].
  - rewrite app_nil_r. reflexivity.
  - destruct (N.eqb x 44) eqn:E.
    + apply N.eqb_eq in E. subst. exfalso. apply H. left. reflexivity.
    + rewrite IH by (intro; apply H; right; assumption). cbn [rev]. rewrite <- app_assoc. reflexivity.
Qed.

Lemma csv_fields : forall v, csv_ok v ->
  fields [] (csv_line v) = [v_file v; v_channel v; v_ref v; v_sys v; v_mapped v; v_time v].
Proof.
  intros v ((H1 & H2 & H3 & H4 & H5 & H6) & _). unfold csv_line.
  change (bytes ",") with [44%N]. cbn [app].
  rewrite !fields_app, fields_end by assumption. reflexivity.
Qed.

Lemma load_line_csv : forall m v, csv_ok v ->
  load_line m (csv_line v) =
  Ok (if same_str (v_mapped v) (bytes "mapped")
      then set_sys_ref m (v_file v) (v_channel v) (v_sys v) (v_ref v) else m).
Proof.
  intros m v H. pose proof (csv_fields v H) as F.
  destruct H as (_ & _ & _ & NC & NH).
  unfold load_line.
  assert (X : forall A (a b : A), match csv_line v with 35%N :: _ => a | _ => b end = b).
  { intros A a b. unfold csv_line. destruct (v_file v) as [|x f] eqn:E; cbn [app].
    - change (bytes ",") with [44%N]. reflexivity.
    - destruct (N.eq_dec x 35) as [->|n]; [exfalso; apply (NC f); reflexivity|].
      destruct x as [|p]; [reflexivity|].
      do 6 (destruct p as [p|p|]; try reflexivity). exfalso. apply n. reflexivity. }
  rewrite X, (str_eqb_neq _ _ NH), F. cbn [List.length nth Nat.ltb Nat.leb]. rewrite same_str_eqb.
  destruct (str_eqb _ _); reflexivity.
Qed.

Lemma load_lines_csv : forall l m, Forall csv_ok l ->
  load_lines m (map csv_line l) =
  Ok (fold_left (fun m g => set_sys_ref m (g_file g) (g_channel g) (g_sys g) (g_ref g)) (mapped_rows l) m).
Proof.
  induction l as [|v l IH]; intros m F; cbn [map load_lines].
  - reflexivity.
  - inversion F; subst. rewrite load_line_csv by assumption. cbn [rbind]. rewrite IH by assumption.
    unfold mapped_rows. cbn [filter]. destruct (same_str _ _); reflexivity.
Qed.

(** * Properties *)
Lemma massoc_add_default : forall m k v n,
  massoc (add_default m k v) n =
  match massoc m n with Some x => Some x | None => if str_eqb (bytes k) n then Some (bytes v) else None end.
Proof.
  intros m k v n. unfold add_default. destruct (massoc m (bytes k)) as [x|] eqn:E.
  - destruct (massoc m n) eqn:E'; [reflexivity|]. destruct (str_eqb (bytes k) n) eqn:Q; [|reflexivity].
    apply str_eqb_spec in Q. subst. congruence.
  - rewrite massoc_mput. destruct (str_eqb (bytes k) n) eqn:Q.
    + apply str_eqb_spec in Q. subst. rewrite E. reflexivity.
    + destruct (massoc m n); reflexivity.
Qed.

Definition val (p : props) (n : str) : str := match massoc (p_map p) n with Some v => v | None => [] end.

Lemma set_properties_val : forall m n,
  val (set_properties m) n = match massoc m n with Some v => v | None => default_in defaults n end.
Proof.
  intros m n. unfold val, set_properties. cbn [p_map]. rewrite !massoc_add_default.
  destruct (massoc m n); [reflexivity|].
  unfold defaults. cbn [default_in]. rewrite !same_str_eqb.
  repeat (match goal with |- context [str_eqb (bytes ?k) n] => destruct (str_eqb (bytes k) n) end; [reflexivity|]).
  reflexivity.
Qed.

Lemma get_property_val : forall p n, fst (get_property p n) = val p n.
Proof.
  intros p n. unfold get_property, mindex, val. destruct (massoc (p_map p) n); reflexivity.
Qed.
Lemma get_property_keeps : forall p n k, val (snd (get_property p n)) k = val p k.
Proof.
  intros p n k. unfold get_property, mindex, val. destruct (massoc (p_map p) n) eqn:E; cbn [snd p_map].
  - reflexivity.
  - rewrite massoc_mput. destruct (str_eqb n k) eqn:Q; [|reflexivity].
    apply str_eqb_spec in Q. subst. rewrite E. reflexivity.
Qed.
Lemma get_property_dirty : forall p n, p_dirty (snd (get_property p n)) = false.
Proof. intros p n. unfold get_property. destruct (mindex _ _ _). reflexivity. Qed.

Lemma run_props_val : forall h n, val (run_props h) n = value_of (rev h) n.
Proof.
  unfold run_props. induction h as [|o h IH] using rev_ind; intro n.
  - reflexivity.
  - rewrite fold_left_app, rev_app_distr. cbn [fold_left rev app]. destruct o as [k v|m|k]; cbn [do_prop value_of].
    + unfold val, set_property. cbn [p_map]. rewrite massoc_mput, same_str_eqb.
      destruct (str_eqb k n); [reflexivity|]. apply IH.
    + apply set_properties_val.
    + rewrite get_property_keeps. apply IH.
Qed.

Lemma run_props_dirty : forall h, is_dirty (run_props h) = match rev h with PGet _ :: _ => false | _ => true end.
Proof.
  intro h. unfold run_props. destruct h as [|o h] using rev_ind; [reflexivity|].
  rewrite fold_left_app, rev_app_distr. cbn [fold_left rev app]. destruct o; cbn [do_prop]; try reflexivity.
  apply get_property_dirty.
Qed.

(** Speech sets. *)
Definition fresh (p : props) (s : sset) : Prop :=
  ss_case s = str_eqb (val p (bytes "align.case_sensitive")) (bytes "true") /\
  ss_frag s = str_eqb (val p (bytes "align.fragment_are_correct")) (bytes "true").

Lemma update_spec : forall p s b, (forall n, val (fst (update_if_needed p s b)) n = val p n) /\
  ((b = true \/ is_dirty p = true) ->
    fresh p (snd (update_if_needed p s b)) /\ is_dirty (fst (update_if_needed p s b)) = false /\
    ss_opt (snd (update_if_needed p s b)) =
      (str_eqb (val p (bytes "align.optionally")) (bytes "both") ||
       str_eqb (val p (bytes "align.optionally")) (bytes (if ss_ref s then "ref" else "hyp"))) /\
    ss_ref (snd (update_if_needed p s b)) = ss_ref s) /\
  ((b = false /\ is_dirty p = false) -> update_if_needed p s b = (p, s)).
Proof.
  intros p s b. unfold update_if_needed.
  destruct (b || is_dirty p) eqn:D.
  - destruct (get_property p (bytes "align.case_sensitive")) as [c p1] eqn:E1.
    destruct (get_property p1 (bytes "align.fragment_are_correct")) as [f p2] eqn:E2.
    destruct (get_property p2 (bytes "align.optionally")) as [o p3] eqn:E3.
    assert (K1 : forall n, val p1 n = val p n).
    { intro n. replace p1 with (snd (get_property p (bytes "align.case_sensitive"))) by (rewrite E1; reflexivity). apply get_property_keeps. }
    assert (K2 : forall n, val p2 n = val p1 n).
    { intro n. replace p2 with (snd (get_property p1 (bytes "align.fragment_are_correct"))) by (rewrite E2; reflexivity). apply get_property_keeps. }
    assert (K3 : forall n, val p3 n = val p2 n).
    { intro n. replace p3 with (snd (get_property p2 (bytes "align.optionally"))) by (rewrite E3; reflexivity). apply get_property_keeps. }
    assert (C : c = val p (bytes "align.case_sensitive")) by (rewrite <- get_property_val, E1; reflexivity).
    assert (F : f = val p (bytes "align.fragment_are_correct")) by (rewrite <- K1, <- get_property_val, E2; reflexivity).
    assert (O : o = val p (bytes "align.optionally")) by (rewrite <- K1, <- K2, <- get_property_val, E3; reflexivity).
    split; [|split].
    + intro n. cbn [fst]. rewrite K3, K2, K1. reflexivity.
    + intros _. cbn [fst snd ss_ref ss_opt]. split; [split; cbn [ss_case ss_frag]; congruence|]. split; [|split; [|reflexivity]].
      * unfold is_dirty. replace p3 with (snd (get_property p2 (bytes "align.optionally"))) by (rewrite E3; reflexivity). apply get_property_dirty.
      * rewrite <- O. destruct (str_eqb o (bytes "both")); [reflexivity|]. cbn [orb]. destruct (ss_ref s); reflexivity.
    + intros [-> H]. rewrite H in D. discriminate.
  - split; [reflexivity|]. split; [|reflexivity]. intros [->|H]; [discriminate|]. rewrite H, orb_true_r in D. discriminate.
Qed.

Lemma do_set_fresh : forall p s o, fresh p s -> is_dirty p = false ->
  let w := do_set (p, s) o in
  fresh (fst w) (snd w) /\ is_dirty (fst w) = false /\ (forall n, val (fst w) n = val p n) /\ ss_opt (snd w) = ss_opt s.
Proof.
  intros p s o F D. unfold do_set. cbn [fst snd].
  destruct (update_spec p s false) as (_ & _ & U). specialize (U (conj eq_refl D)).
  destruct o as [k|b| | |].
  - cbn [fst snd]. split; [|split; [apply get_property_dirty|split; [intro; apply get_property_keeps|reflexivity]]].
    destruct F as [F1 F2]. split; rewrite get_property_keeps; assumption.
  - cbn [fst snd]. split; [exact F|]. split; [exact D|]. split; reflexivity.
  - unfold perform_case. rewrite U. cbn [fst snd]. repeat split; try assumption; apply F.
  - unfold fragments_correct. rewrite U. cbn [fst snd]. repeat split; try assumption; apply F.
  - unfold use_optionally. rewrite U. cbn [fst snd]. repeat split; try assumption; apply F.
Qed.

Lemma run_set_fresh : forall ops p s, fresh p s -> is_dirty p = false ->
  let w := fold_left do_set ops (p, s) in
  fresh (fst w) (snd w) /\ is_dirty (fst w) = false /\ (forall n, val (fst w) n = val p n) /\ ss_opt (snd w) = ss_opt s.
Proof.
  induction ops as [|o ops IH]; intros p s F D; cbn [fold_left].
  - cbn [fst snd]. auto.
  - destruct (do_set_fresh p s o F D) as (F' & D' & K & O).
    destruct (do_set (p, s) o) as [p' s'] eqn:E. cbn [fst snd] in *.
    destruct (IH p' s' F' D') as (A & B & C & G). split; [exact A|]. split; [exact B|]. split.
    + intro n. rewrite C. apply K.
    + congruence.
Qed.

Lemma cached_reads : forall h ops,
  let w0 := new_sset (run_props h) in
  let w := fold_left do_set ops w0 in
  fst (perform_case (fst w) (snd w)) = str_eqb (value_of (rev h) (bytes "align.case_sensitive")) (bytes "true") /\
  fst (fragments_correct (fst w) (snd w)) = str_eqb (value_of (rev h) (bytes "align.fragment_are_correct")) (bytes "true") /\
  fst (use_optionally (fst w) (snd w)) =
    (str_eqb (value_of (rev h) (bytes "align.optionally")) (bytes "both") ||
     str_eqb (value_of (rev h) (bytes "align.optionally")) (bytes "hyp")).
Proof.
  intros h ops. cbn zeta. unfold new_sset.
  set (s0 := {| ss_ref := false; ss_case := false; ss_frag := false; ss_opt := false |}).
  destruct (update_spec (run_props h) s0 true) as (K & U & _). specialize (U (or_introl eq_refl)).
  destruct U as (F & D & O & R).
  destruct (update_if_needed (run_props h) s0 true) as [p s] eqn:E. cbn [fst snd] in *.
  assert (F' : fresh p s) by (destruct F as [F1 F2]; split; rewrite K; assumption).
  destruct (run_set_fresh ops p s F' D) as (A & B & C & G).
  destruct (fold_left do_set ops (p, s)) as [p' s'] eqn:E'. cbn [fst snd] in *.
  destruct (update_spec p' s' false) as (_ & _ & U). specialize (U (conj eq_refl B)).
  unfold perform_case, fragments_correct, use_optionally. rewrite U. cbn [fst].
  destruct A as [A1 A2]. rewrite A1, A2, G, O, !C, !K, !run_props_val. auto.
Qed.
