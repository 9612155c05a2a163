(** Labels and subset scores of sclite. *)
From Coq Require Import String Ascii.
From Coq Require Import List ZArith NArith Arith Bool Lia.
From Verif Require Import Base Text_Model Text_Spec Case_Model Case_Spec Case_Proofs Sgml_Model Sgml_Spec Lur_Model Lur_Spec Lur_Proofs1 Lur_Proofs2 Lur_Proofs3.
Import ListNotations.
Local Open Scope list_scope.

(** ** C80: the label tables *)
Theorem C80_labels : forall e ms lines, Forall2 (fun m l => holds m l /\ text e l) ms lines ->
  exists labels cats xs ys, load_labels e [] [] ms = Ok (labels, cats)
    /\ declared LABEL lines xs /\ firsts xs labels /\ declared CATEGORY lines ys /\ firsts ys cats.
Proof.
  intros e ms lines F. destruct (load_spec e ms lines F [] [] [] [] (Forall_nil _) (Forall_nil _) firsts_nil firsts_nil)
    as (ls & cs & xs & ys & E & D1 & D2 & F1 & F2). exists ls, cs, xs, ys. auto.
Qed.
Print Assumptions C80_labels.

(** what a line declares is determined *)
Theorem C80_one_label_per_line : forall kw line x y, no_quote kw -> declares kw line x -> declares kw line y -> x = y.
Proof.
  intros kw line x y NK DX DY. apply declares_iff in DX as [_ (r1 & r2 & r3 & A1 & A2 & A3)]; [|exact NK].
  apply declares_iff in DY as [_ (s1 & s2 & s3 & B1 & B2 & B3)]; [|exact NK].
  destruct (two_unique _ _ _ _ _ A1 B1) as [E1 <-]. destruct (two_unique _ _ _ _ _ A2 B2) as [E2 <-]. destruct (two_unique _ _ _ _ _ A3 B3) as [E3 <-].
  destruct x, y; cbn in *; congruence.
Qed.
Print Assumptions C80_one_label_per_line.

(** no label is entered twice, and all declared labels are entered *)
Theorem C80_firsts : forall xs out, firsts xs out -> NoDup out /\ forall x, In x out <-> In x xs.
Proof.
  intros xs out F. split; [|intros x; symmetry; now apply firsts_in].
  induction F as [|xs out x F IH N|xs out x F IH I]; [constructor| |exact IH].
  apply (NoDup_Add (a := x) (l := out)); [|split; [exact IH|]].
  - rewrite <- (app_nil_r out) at 1. apply Add_app.
  - now rewrite <- (firsts_in _ _ _ F).
Qed.
Print Assumptions C80_firsts.

(** the lookup finds the first label with the identifier up to case *)
Theorem C80_lookup : forall e p junk static ids idc h f, Forall2 (text_in e) ids idc -> text_in e h f ->
  roomy static (f ++ concat idc) ->
  exists o static', find_id e p junk static ids h 0 = Ok (o, static')
    /\ match o with
       | Some k => (exists a, nth_error idc k = Some a /\ same_case e p a f)
                   /\ forall j a, j < k -> nth_error idc j = Some a -> ~ same_case e p a f
       | None => forall a, In a idc -> ~ same_case e p a f
       end.
Proof.
  intros e p junk static ids idc h f F T R.
  destruct (find_id_ok e p junk h f (f ++ concat idc) T (incl_appl _ (incl_refl _)) ids idc F) with (i := 0) (static := static) as (o & s & E & _ & FL); auto.
  { intros a I c J. apply in_or_app. right. apply in_concat. eauto. }
  exists o, s. split; [|exact FL]. rewrite E. destruct o; reflexivity.
Qed.
Print Assumptions C80_lookup.

(** ** C81: scores of subsets *)
Lemma f2len {A B} (R : A -> B -> Prop) l l' : Forall2 R l l' -> length l = length l'.
Proof. induction 1; cbn; congruence. Qed.
Section Scores.
  Variables (e : enc) (p : profile) (junk : byte) (static : option mem).
  Variables (ys : list system) (ts : list (test * (chars -> option nat))) (t0 : test) (name0 : chars -> option nat).
  Hypothesis systems : Forall2 (fun y t => system_is e y (fst t) /\ names e p (k_ids (fst t)) (snd t)) ys ts.
  Hypothesis first : nth_error ts 0 = Some (t0, name0).
  (** no system has more labels or speakers than the first *)
  Hypothesis sizes : forall t name, In (t, name) ts -> length (k_ids t) <= length (k_ids t0) /\ length (k_grps t) <= length (k_grps t0).
  Hypothesis buffer : roomy static (concat (map (fun t => test_chars (fst t)) ts)).

  Let fresh : lab := alloc (length ys) (length (k_ids t0)) (length (k_grps t0)).
  Lemma lur_run : exists y0 r, ys = y0 :: r
    /\ follows (concat (map (fun t => test_chars (fst t)) ts)) (compute_systems e p junk 0 ys (static, fresh)) (run (tests_mentions 0 ts) fresh)
    /\ length (y_ids y0) = length (k_ids t0) /\ length (y_grps y0) = length (k_grps t0).
  Proof.
    destruct ts as [|t1 ts'] eqn:ET; [discriminate|]. cbn in first. injection first as ->.
    inversion systems as [|y0 ? r ? [[S1 S2] NM] F]; subst. cbn [fst snd] in *. exists y0, r. split; [reflexivity|]. split.
    - apply systems_ok; auto. apply Forall_forall. intros t I. apply chars_in_test. intros c J. apply in_concat.
      exists (test_chars (fst t)). split; [|exact J]. apply (in_map (fun t => test_chars (fst t))) in I. exact I.
    - split; [exact (f2len _ _ _ S1)|exact (f2len _ _ _ S2)].
  Qed.
  Lemma fresh_dims : dims fresh (length ys) (length (k_ids t0)) (length (k_grps t0)).
  Proof.
    unfold fresh, alloc, dims. cbn [location lsc]. rewrite !repeat_length. repeat split. apply Forall_forall. intros a I. apply repeat_spec in I. subst.
    rewrite repeat_length. split; [reflexivity|]. apply Forall_forall. intros b I. apply repeat_spec in I. subst. apply repeat_length.
  Qed.
  Lemma fresh_cell i k g : i < length ys -> k < length (k_ids t0) -> g < length (k_grps t0) -> cell fresh i k g = Some (0, 0).
  Proof.
    intros Hi Hk Hg. unfold cell, fresh, alloc. cbn [lsc]. rewrite (nth_error_repeat _ Hi), (nth_error_repeat _ Hk), (nth_error_repeat _ Hg). reflexivity.
  Qed.
  Lemma good_mentions : Forall (good_mention (length ys) (length (k_ids t0)) (length (k_grps t0))) (tests_mentions 0 ts).
  Proof.
    apply Forall_forall. intros m I. apply tests_mentions_in in I as (d & t & name & E & I).
    apply groups_mentions_in in I as (g & us & u & E2 & I2 & I). apply utt_mentions_in in I as (fs & q & f & EF & EN & NE & ->).
    cbn [good_mention plus]. destruct (sizes t name (nth_error_In _ _ E)) as [SL SG].
    assert (LT : d < length ts) by (apply nth_error_Some; congruence).
    assert (LG : g < length (k_grps t)) by (apply nth_error_Some; congruence).
    split; [rewrite (f2len _ _ _ systems); exact LT|]. split; [lia|]. intros k K.
    (* the field is valid since the sentence is *)
    assert (Q : system_is e (nth d ys {| y_ids := []; y_grps := [] |}) t /\ names e p (k_ids t) name).
    { assert (Forall2 (fun y t => system_is e y (fst t) /\ names e p (k_ids (fst t)) (snd t)) ys ts) as S by exact systems.
      clear -S E. revert d E. induction S as [|y t' ys ts [A B] S IH]; intros [|d] E; try discriminate; cbn [nth_error nth] in *.
      - injection E as ->. auto.
      - auto. }
    destruct Q as [[Q1 Q2] NM]. assert (V : Forall (valid e) f).
    { assert (SI : exists s, sentence_is e s u).
      { clear -Q2 E2 I2. revert g E2. induction Q2 as [|ss us' gs gus S F IH]; intros [|g] E2; try discriminate; cbn [nth_error] in E2.
        - injection E2 as ->. clear -S I2. induction S as [|s u' ss us S1 S IH]; [destruct I2|]. destruct I2 as [->|I2]; eauto.
        - eauto. }
      destruct SI as (s & _ & SI). rewrite EF in SI. destruct (t_labels s); [|contradiction]. destruct SI as (_ & _ & G).
      rewrite Forall_forall in G. apply G. eapply nth_error_In; eauto. }
    specialize (NM f V). rewrite K in NM. destruct NM as [(a & A & _) _]. assert (k < length (k_ids t)) by (apply nth_error_Some; congruence). lia.
  Qed.

  Lemma lur_cases : (known ts /\ same_place ts
      /\ exists t, lur e p junk static ys = Ok t /\ forall i k g, i < length ys -> k < length (k_ids t0) -> g < length (k_grps t0) ->
           cell t i k g = Some (sum is_ref i k g (tests_mentions 0 ts), sum is_err i k g (tests_mentions 0 ts)))
    \/ (~ (known ts /\ same_place ts) /\ lur e p junk static ys = Exit).
  Proof.
    destruct lur_run as (y0 & r & EY & FO & L1 & L2).
    assert (LQ : forall k, loc fresh k = None).
    { intros k. unfold loc, fresh, alloc. cbn [location]. destruct (nth_error (repeat None (length (k_ids t0))) k) eqn:E; [|reflexivity].
      apply nth_error_In, repeat_spec in E. exact E. }
    assert (FI : fits (loc fresh) (tests_mentions 0 ts) <-> known ts /\ same_place ts).
    { rewrite <- fits_iff. unfold fits. split; intros (A & B & C); repeat split; auto; intros m k I J; left; auto. }
    assert (EL : lur e p junk static ys = rbind (compute_systems e p junk 0 ys (static, fresh)) (fun st => Ok (snd st))).
    { unfold lur, fresh. rewrite EY. rewrite <- L1, <- L2. reflexivity. }
    rewrite EL. destruct (run_spec _ _ _ (tests_mentions 0 ts) fresh fresh_dims good_mentions) as [(FT & t' & E & D' & CC)|(NF & E)]; rewrite E in FO; cbn [follows] in FO.
    - left. apply FI in FT as [A B]. split; [exact A|]. split; [exact B|]. destruct FO as (s & -> & _). exists t'. split; [reflexivity|].
      intros i k g Hi Hk Hg. rewrite (CC i k g (0, 0) (fresh_cell i k g Hi Hk Hg)). reflexivity.
    - right. split; [now rewrite <- FI|]. rewrite FO. reflexivity.
  Qed.

  (** every label is declared and keeps its field: the counters are the words of the utterances with
      the label; otherwise the program stops *)
  Theorem C81_subset_scores : known ts -> same_place ts ->
    exists t, lur e p junk static ys = Ok t
      /\ forall i k g tst name us, nth_error ts i = Some (tst, name) -> k < length (k_ids t0) -> nth_error (k_grps tst) g = Some us ->
           cell t i k g = Some (total is_ref name k us, total is_err name k us).
  Proof.
    intros KN SP. destruct lur_cases as [(_ & _ & t & E & CC)|[N _]]; [|exfalso; apply N; auto].
    exists t. split; [exact E|]. intros i k g tst name us ET Hk EG.
    assert (U : Forall (fun t => Forall (Forall (unique (snd t))) (k_grps (fst t))) ts).
    { apply Forall_forall. intros [t' n'] I. cbn [fst snd]. apply Forall_forall. intros g' J. apply Forall_forall. intros u L q q' k' C C'.
      assert (uses t' u) by (exists g'; auto). eapply (SP t' n' u t' n' u); eauto. }
    destruct (sizes _ _ (nth_error_In _ _ ET)) as [_ SG].
    assert (g < length (k_grps tst)) by (apply nth_error_Some; congruence).
    rewrite CC; [|rewrite (f2len _ _ _ systems); apply nth_error_Some; congruence|exact Hk|lia].
    rewrite !sum_tests by exact U. cbn [Nat.leb]. rewrite Nat.sub_0_r, ET, EG. reflexivity.
  Qed.
  Theorem C81_stops_exactly : lur e p junk static ys = Exit <-> ~ (known ts /\ same_place ts).
  Proof.
    destruct lur_cases as [(A & B & t & E & _)|[N E]]; rewrite E; split; auto; [discriminate|]. intros N. exfalso. apply N. auto.
  Qed.
End Scores.
Print Assumptions C81_subset_scores.
Print Assumptions C81_stops_exactly.

(** there is always a naming *)
Definition look_up (e : enc) (p : profile) (ids : list mem) (f : chars) : option nat :=
  match find_id e p 0%N (Some (repeat 0%N 8)) ids (concat f ++ [0%N]) 0 with Ok (o, _) => o | _ => None end.
Theorem C81_names_exist : forall e p ids idc, Forall2 (text_in e) ids idc -> names e p idc (look_up e p ids).
Proof.
  intros e p ids idc F f V.
  assert (T : text_in e (concat f ++ [0%N]) f).
  { split; [|exact V]. split; [apply (Text_Proofs1.chars_no0 e); now apply valid_chars|]. exists []. reflexivity. }
  destruct (C80_lookup e p 0%N (Some (repeat 0%N 8)) ids idc _ f F T) as (o & s & E & H).
  { left. rewrite repeat_length. lia. }
  unfold look_up. rewrite E. exact H.
Qed.
Print Assumptions C81_names_exist.

(** the sums of both reports are those of all speakers *)
Lemma sums_app l : forall a b, fold_left (fun x c : nat * nat => (fst x + fst c, snd x + snd c)) l (a, b) = (a + list_sum (map fst l), b + list_sum (map snd l)).
Proof.
  induction l as [|[x y] l IH]; intros a b; cbn [fold_left map list_sum fold_right fst snd]; [f_equal; lia|]. rewrite IH. unfold list_sum. cbn [fold_right]. f_equal; lia.
Qed.
Theorem C81_sums : forall cells,
  snd (column1 cells) = (list_sum (map fst cells), list_sum (map snd cells)) /\ snd (columnN cells) = snd (column1 cells).
Proof.
  intros cells. unfold column1, columnN, sums. cbn [snd]. rewrite !sums_app. cbn [plus]. split; [reflexivity|].
  assert (LS : forall a l, list_sum (a :: l) = a + list_sum l) by reflexivity.
  induction cells as [|[x y] l IH]; [reflexivity|]. cbn [filter].
  assert (I1 : list_sum (map fst (filter presentN l)) = list_sum (map fst l)) by congruence.
  assert (I2 : list_sum (map snd (filter presentN l)) = list_sum (map snd l)) by congruence.
  destruct (presentN (x, y)) eqn:E; cbn [map]; rewrite !LS, I1, I2; cbn [fst snd]; [reflexivity|].
  unfold presentN in E. cbn [fst snd] in E. destruct (Nat.eqb_spec (x + y) 0); [|discriminate]. f_equal; lia.
Qed.
Print Assumptions C81_sums.

(** a speaker with insertions only counts for the mean of one report and not of the other *)
Theorem C81_reports_agree_on_speakers_refuted : exists cells, fst (column1 cells) <> fst (columnN cells).
Proof. exists [(0, 2); (10, 5)]. vm_compute. discriminate. Qed.
Print Assumptions C81_reports_agree_on_speakers_refuted.

(** a label text without the closing bracket is read past its end; a label of thirty bytes is written
    past its buffer *)
Theorem C81_open_bracket_refuted :
  lur ASCII Generic 0%N None [{| y_ids := [cstr (B "A")]; y_grps := [[{| t_labels := Some (cstr (B "<A")); t_evals := [Corr] |}]] |}] = Undef.
Proof. vm_compute. reflexivity. Qed.
Print Assumptions C81_open_bracket_refuted.
Theorem C81_long_label_refuted :
  lur ASCII Generic 0%N None [{| y_ids := [cstr (repeat 65%N 30)]; y_grps := [[{| t_labels := Some (cstr (60%N :: repeat 65%N 30 ++ [62%N])); t_evals := [Corr] |}]] |}] = Undef.
Proof. vm_compute. reflexivity. Qed.
Print Assumptions C81_long_label_refuted.
(** a later system with more speakers is counted past the array *)
Theorem C81_more_speakers_refuted :
  let s := {| t_labels := Some (cstr (B "<A>")); t_evals := [Corr] |} in
  lur ASCII Generic 0%N None [{| y_ids := [cstr (B "A")]; y_grps := [[s]] |}; {| y_ids := [cstr (B "A")]; y_grps := [[s]; [s]] |}] = Undef.
Proof. vm_compute. reflexivity. Qed.
Print Assumptions C81_more_speakers_refuted.

(** ** examples *)
Definition ex_line : list N := B ";; LABEL ""F0"" ""Baseline"" ""Prepared speech""".
Example labels_example : load_labels ASCII [] [] (map cstr [B "sw2001 A spk 0 1 <F0>"; ex_line; B ";; CATEGORY ""0"" ""Foc"" """""; ex_line; B ";; LABEL ""X"" "])
  = Ok ([{| lb_id := B "F0"; lb_title := B "Baseline"; lb_desc := B "Prepared speech" |}], [{| lb_id := B "0"; lb_title := B "Foc"; lb_desc := [] |}]).
Proof. vm_compute. reflexivity. Qed.
Example labels_example_meets : Forall2 (fun m l => holds m l /\ text ASCII l) [cstr ex_line] [ex_line] /\ exists x, declares LABEL ex_line x.
Proof.
  split.
  - constructor; [|constructor]. split.
    + split; [vm_compute; intuition discriminate|]. exists []. reflexivity.
    + exists (singles ex_line). split; [split; [symmetry; apply singles_concat|apply singles_chars; vm_compute; reflexivity]|].
      apply Forall_forall. intros c I. apply in_map_iff in I as (b & <- & _). intros L. cbn [length] in L. lia.
  - exists {| lb_id := B "F0"; lb_title := B "Baseline"; lb_desc := B "Prepared speech" |}. exists [], (B " "), (B " "), [].
    split; [reflexivity|]. repeat split; vm_compute; intuition discriminate.
Qed.

Definition ex_ids : list mem := [cstr (B "F0"); cstr (B "Male")].
Definition ex_idc : list chars := [singles (B "F0"); singles (B "Male")].
Definition ex_sys : system := {| y_ids := ex_ids; y_grps :=
  [[{| t_labels := Some (cstr (B "<f0,MALE>")); t_evals := [Corr; Sub; Ins] |}; {| t_labels := None; t_evals := [Corr] |};
    {| t_labels := Some (cstr (B "<,male>")); t_evals := [Del; Corr] |}];
   [{| t_labels := Some (cstr (B "<F0>")); t_evals := [Ins] |}]] |}.
Definition ex_test : test := {| k_ids := ex_idc; k_grps :=
  [[{| u_fields := Some [singles (B "f0"); singles (B "MALE")]; u_evals := [Corr; Sub; Ins] |}; {| u_fields := None; u_evals := [Corr] |};
    {| u_fields := Some [[]; singles (B "male")]; u_evals := [Del; Corr] |}];
   [{| u_fields := Some [singles (B "F0")]; u_evals := [Ins] |}]] |}.
Definition ex_name : chars -> option nat := look_up ASCII Generic ex_ids.

Lemma ascii_valid s : forallb (fun b => (0 <? b)%N && (b <? 128)%N) s = true -> Forall (valid ASCII) (singles s).
Proof. intros H. apply (singles_chars ASCII) in H. eapply Forall_impl; [|exact H]. intros c C. split; [exact C|discriminate]. Qed.
Lemma ascii_holds s : forallb (fun b => (0 <? b)%N && (b <? 128)%N) s = true -> holds (cstr s) s.
Proof.
  intros H. split; [|exists []; reflexivity]. intros I. rewrite forallb_forall in H. specialize (H _ I). discriminate.
Qed.
Example subset_example :
  Forall2 (fun y t => system_is ASCII y (fst t) /\ names ASCII Generic (k_ids (fst t)) (snd t)) [ex_sys] [(ex_test, ex_name)]
  /\ known [(ex_test, ex_name)] /\ same_place [(ex_test, ex_name)] /\ roomy None (test_chars ex_test)
  /\ exists t, lur ASCII Generic 0%N None [ex_sys] = Ok t /\ lsc t = [[[(2, 2); (0, 1)]; [(4, 3); (0, 0)]]].
Proof.
  assert (IDS : Forall2 (text_in ASCII) ex_ids ex_idc).
  { repeat (apply Forall2_cons; [split; [rewrite singles_concat; apply ascii_holds|apply ascii_valid]; reflexivity|]). constructor. }
  assert (GF : forall s, forallb (fun b => (0 <? b)%N && (b <? 128)%N) s = true -> length s < 30 -> forallb (fun b => negb (stops b)) s = true -> good_field ASCII (singles s)).
  { intros s H L S. split; [now apply ascii_valid|]. rewrite singles_concat. split; [exact L|]. intros b I. rewrite forallb_forall in S. specialize (S _ I).
    unfold stops in S. repeat split; intros ->; discriminate. }
  assert (US : forall u, uses ex_test u -> u_fields u = None \/ u_fields u = Some [singles (B "f0"); singles (B "MALE")]
     \/ u_fields u = Some [[]; singles (B "male")] \/ u_fields u = Some [singles (B "F0")]).
  { intros u (g & I & J). cbn [ex_test k_grps In] in I. destruct I as [<-|[<-|[]]]; cbn [In] in J; intuition (subst; auto). }
  split; [|split; [|split; [|split]]].
  - constructor; [|constructor]. split; [|apply C81_names_exist; exact IDS]. split; [exact IDS|].
    repeat (apply Forall2_cons || apply Forall2_nil); (split; [reflexivity|]); cbn [t_labels u_fields]; try exact I;
      (split; [apply ascii_holds; vm_compute; reflexivity|]; split; [discriminate|]);
      repeat (apply Forall_cons || apply Forall_nil); try (apply GF; [reflexivity|cbn; lia|reflexivity]).
    split; [constructor|]. split; [cbn; lia|]. intros b [].
  - intros t name u fs f [E|[]] U EF IF NE. injection E as <- <-.
    destruct (US u U) as [X|[X|[X|X]]]; rewrite X in EF; try discriminate; injection EF as <-; cbn [In] in IF;
      intuition (subst; try congruence; try (vm_compute in *; congruence)).
  - intros t name u t' name' u' q q' k [E|[]] U [E'|[]] U' (fs & f & EF & EN & NE & EO) (fs' & f' & EF' & EN' & NE' & EO').
    injection E as <- <-. injection E' as <- <-.
    assert (P : forall u fs f q k, uses ex_test u -> u_fields u = Some fs -> nth_error fs q = Some f -> f <> [] -> ex_name f = Some k -> q = k).
    { clear -US. intros u fs f q k U EF EN NE EO.
      destruct (US u U) as [X|[X|[X|X]]]; rewrite X in EF; try discriminate; injection EF as <-; destruct q as [|[|q]]; cbn [nth_error] in EN;
        try (destruct q; discriminate); try discriminate; injection EN as <-; try congruence; vm_compute in EO; congruence. }
    rewrite (P u fs f q k), (P u' fs' f' q' k); auto.
  - right. split; [exact I|]. apply Forall_forall. intros c J. vm_compute in J. intuition (subst; cbn; lia).
  - eexists. split; [vm_compute; reflexivity|reflexivity].
Qed.
