(** Proofs about the subset scores: the code follows the mentions of labels. *)
From Coq Require Import List ZArith NArith Arith Bool Lia.
From Verif Require Import Base Text_Model Text_Spec Text_Proofs1 Case_Model Case_Spec Case_Proofs Sgml_Model Lur_Model Lur_Spec.
From Verif Require Sgml_Proofs1.
Import ListNotations.
Local Open Scope list_scope.

(** ** the lookup *)
Lemma roomy_enough static cs all : roomy static all -> enough static cs all.
Proof. intros [H|H]; [left; destruct static; [exact H|contradiction]|right; exact H]. Qed.
Lemma room_roomy out all : room (length out) all -> roomy (Some out) all.
Proof. intros [H|H]; [left; exact H|right; exact H]. Qed.

Lemma casecmp_ok e p junk static m1 m2 cs1 cs2 all : text_in e m1 cs1 -> text_in e m2 cs2 -> enough static cs1 all ->
  incl cs1 all -> incl cs2 all ->
  exists z s, strcasecmp e p junk static m1 m2 = Ok (z, s) /\ ((z =? 0)%Z = true <-> same_case e p cs1 cs2) /\ room (length s) all.
Proof.
  intros T1 T2 EN I1 I2. unfold strcasecmp, casecmp.
  destruct (case_change_ok e p junk true static (repeat junk 100) m1 cs1 all T1 EN I1)
    as (q1 & s1 & d1 & -> & F1 & D1 & S1 & R1 & L1). cbn [rbind].
  assert (EN2 : enough (Some s1) cs2 all) by (destruct R1 as [R|R]; [left; exact R|right; exact R]).
  destruct (case_change_ok e p junk true (Some s1) (repeat junk 100) m2 cs2 all T2 EN2 I2)
    as (q2 & s2 & d2 & -> & F2 & D2 & S2 & R2 & L2). cbn [rbind].
  destruct D1 as [H1 V1], D2 as [H2 V2].
  assert (C1 : chars_of e (concat d1) d1) by (split; [reflexivity|now apply valid_chars]).
  assert (C2 : chars_of e (concat d2) d2) by (split; [reflexivity|now apply valid_chars]).
  rewrite (strccmp_lex e q1 q2 (concat d1) (concat d2) d1 d2 (-1)) by (assumption || lia). rewrite Z.eqb_refl. cbn [rbind].
  exists (lex ccmp d1 d2), s2. split; [reflexivity|]. split; [|exact R2]. rewrite Sgml_Proofs1.lex_ccmp_eq. split.
  - intros <-. exists d1. auto.
  - intros (ds & G1 & G2). rewrite (forall2_fun _ _ _ _ _ F1 _ G1), (forall2_fun _ _ _ _ _ F2 _ G2). reflexivity.
Qed.

Definition first_label (e : enc) (p : profile) (ids : list chars) (f : chars) (o : option nat) : Prop :=
  match o with
  | Some k => (exists a, nth_error ids k = Some a /\ same_case e p a f)
              /\ forall j a, j < k -> nth_error ids j = Some a -> ~ same_case e p a f
  | None => forall a, In a ids -> ~ same_case e p a f
  end.
Lemma first_label_unique e p ids f o o' : first_label e p ids f o -> first_label e p ids f o' -> o = o'.
Proof.
  destruct o as [k|], o' as [k'|]; cbn [first_label].
  - intros ((a & A & S) & L) ((a' & A' & S') & L'). f_equal. destruct (lt_eq_lt_dec k k') as [[Q|Q]|Q]; [|exact Q|].
    + exfalso. exact (L' _ _ Q A S).
    + exfalso. exact (L _ _ Q A' S').
  - intros ((a & A & S) & L) H. exfalso. apply (H a); [eapply nth_error_In; eauto|exact S].
  - intros H ((a & A & S) & L). exfalso. apply (H a); [eapply nth_error_In; eauto|exact S].
  - reflexivity.
Qed.
Lemma find_id_ok e p junk h f all : text_in e h f -> incl f all -> forall ids idc, Forall2 (text_in e) ids idc ->
  (forall a, In a idc -> incl a all) -> forall i static, roomy static all ->
  exists o static', find_id e p junk static ids h i = Ok (option_map (fun k => i + k) o, static') /\ roomy static' all
    /\ first_label e p idc f o.
Proof.
  intros T IF ids idc F. induction F as [|a ca ids idc A F IH]; intros IA i static R.
  - exists None, static. split; [reflexivity|]. split; [exact R|]. intros a [].
  - cbn [find_id]. destruct (casecmp_ok e p junk static a h ca f all A T (roomy_enough _ _ _ R)) as (z & s & -> & HZ & RM).
    { apply IA. left. reflexivity. } { exact IF. }
    cbn [rbind]. destruct (z =? 0)%Z.
    + exists (Some 0), (Some s). split; [cbn [option_map]; now rewrite Nat.add_0_r|]. split; [now apply room_roomy|].
      split; [exists ca; split; [reflexivity|now apply HZ]|intros j b L; lia].
    + assert (NS : ~ same_case e p ca f) by (intros S; apply HZ in S; discriminate).
      destruct (IH (fun b I => IA b (or_intror I)) (S i) (Some s) (room_roomy _ _ RM)) as (o & s' & -> & R' & FL).
      exists (option_map S o), s'. split; [destruct o; cbn [option_map]; [rewrite Nat.add_succ_r|]; reflexivity|]. split; [exact R'|].
      destruct o as [k|]; cbn [option_map first_label] in *.
      * destruct FL as [(b & B & SB) L]. split; [exists b; auto|]. intros [|j] c Lj E; [injection E as <-; exact NS|].
        cbn [nth_error] in E. apply (L j); [lia|exact E].
      * intros b [<-|I]; auto.
Qed.

(** ** mentions: system, label, field, speaker, words *)
Definition mention : Type := nat * option nat * nat * nat * list eval.
Fixpoint field_mentions (name : chars -> option nat) (i g : nat) (l : list eval) (q : nat) (fs : list chars) : list mention :=
  match fs with
  | [] => []
  | f :: r => (match f with [] => [] | _ => [(i, name f, q, g, l)] end) ++ field_mentions name i g l (S q) r
  end.
Definition utt_mentions (name : chars -> option nat) (i g : nat) (u : utt) : list mention :=
  match u_fields u with None => [] | Some fs => field_mentions name i g (u_evals u) 0 fs end.
Definition group_mentions (name : chars -> option nat) (i g : nat) (us : list utt) : list mention := flat_map (utt_mentions name i g) us.
Fixpoint groups_mentions (name : chars -> option nat) (i g : nat) (gs : list (list utt)) : list mention :=
  match gs with [] => [] | us :: r => group_mentions name i g us ++ groups_mentions name i (S g) r end.
Fixpoint tests_mentions (i : nat) (ts : list (test * (chars -> option nat))) : list mention :=
  match ts with [] => [] | (t, name) :: r => groups_mentions name i 0 (k_grps t) ++ tests_mentions (S i) r end.

Fixpoint run (ms : list mention) (t : lab) : res lab :=
  match ms with
  | [] => Ok t
  | (i, o, q, g, l) :: r =>
      match o with
      | None => Exit
      | Some k => rbind (count_label i g l q k t) (run r)
      end
  end.
Lemma run_app a b t : run (a ++ b) t = rbind (run a t) (run b).
Proof.
  revert t. induction a as [|((((i & o) & q) & g) & l) a IH]; intros t; [reflexivity|]. cbn [app run]. destruct o as [k|]; [|reflexivity].
  destruct (count_label i g l q k t); cbn [rbind]; auto.
Qed.

(** the code agrees with the run over the mentions *)
Definition follows (all : chars) (c : res (option mem * lab)) (a : res lab) : Prop :=
  match a with
  | Ok t => exists s, c = Ok (s, t) /\ roomy s all
  | Exit => c = Exit
  | Undef => c = Undef
  | NoFuel => c = NoFuel
  end.
Lemma follows_bind all c f a b : follows all c a ->
  (forall s t, roomy s all -> follows all (f (s, t)) (b t)) -> follows all (rbind c f) (rbind a b).
Proof.
  intros H K. destruct a as [t| | |]; cbn [follows] in H; try (subst c; exact eq_refl). destruct H as (s & -> & R). cbn [rbind]. now apply K.
Qed.

Lemma stops_no b : b <> 60%N -> b <> 44%N -> b <> 62%N -> stops b = false.
Proof. intros A B C. unfold stops. destruct (N.eqb_spec b 60), (N.eqb_spec b 44), (N.eqb_spec b 62); try contradiction. reflexivity. Qed.
Lemma cspn_ok s b m : (forall x, In x s -> x <> 60%N /\ x <> 44%N /\ x <> 62%N) -> ~ In 0%N s -> stops b = true -> cspn (s ++ b :: m) = Ok (length s).
Proof.
  intros H N SB. induction s as [|x s IH]; cbn [app cspn length].
  - rewrite SB, orb_true_r. reflexivity.
  - destruct (H x (or_introl eq_refl)) as (A & B & C). rewrite (stops_no x A B C).
    destruct (N.eqb_spec x 0) as [->|]; [exfalso; apply N; left; reflexivity|]. cbn [orb].
    rewrite IH; [reflexivity|intros y I; apply H; right; exact I|intros I; apply N; right; exact I].
Qed.

Lemma rbind_assoc {A B C} (x : res A) (f : A -> res B) (g : B -> res C) : rbind (rbind x f) g = rbind x (fun a => rbind (f a) g).
Proof. destruct x; reflexivity. Qed.

(** one field in front of a stop byte *)
Lemma field_step e p junk ids idc name scnum i l all f b m fuel q static t :
  Forall2 (text_in e) ids idc -> (forall a, In a idc -> incl a all) -> incl f all -> names e p idc name -> good_field e f -> f <> [] ->
  stops b = true -> roomy static all ->
  match name f with
  | None => label_loop (S fuel) e p junk ids scnum i l (concat f ++ b :: m) q static t = Exit
  | Some k => exists static', roomy static' all
       /\ label_loop (S fuel) e p junk ids scnum i l (concat f ++ b :: m) q static t
          = rbind (count_label scnum i l q k t) (fun t => label_loop fuel e p junk ids scnum i l m (S q) static' t)
  end.
Proof.
  intros IDS IA IF NM (V & L30 & NS) NE SB R. pose proof (valid_chars e f V) as VC.
  assert (N0 : ~ In 0%N (concat f)) by now apply (chars_no0 e).
  assert (HD : exists x r, concat f ++ b :: m = x :: r /\ In x (concat f)).
  { destruct f as [|c f]; [congruence|]. inversion VC as [|? ? C _]; subst. destruct C as (x & r & -> & _).
    cbn [concat app]. eexists x, _. split; [reflexivity|left; reflexivity]. }
  destruct HD as (x & r & EX & IX). cbn [label_loop]. rewrite EX. cbn [rd rbind]. rewrite <- EX.
  destruct (NS x IX) as (X1 & X2 & X3).
  destruct (N.eqb_spec x 0) as [->|]; [contradiction|]. destruct (N.eqb_spec x 62); [contradiction|].
  destruct (N.eqb_spec x 60); [contradiction|]. destruct (N.eqb_spec x 44); [contradiction|]. cbn [orb negb].
  rewrite (cspn_ok (concat f) b m NS N0 SB). cbn [rbind].
  assert (L1 : 1 <= length (concat f)) by (destruct (concat f); [contradiction|cbn [length]; lia]).
  destruct (Nat.ltb_spec (length (concat f)) 1); [lia|]. cbn [rbind].
  destruct (Nat.eqb_spec (length (concat f)) 0); [lia|]. cbn [negb].
  destruct (Nat.ltb_spec (length (concat f)) 30); [|lia]. rewrite take_app. cbn [rbind].
  destruct (find_id_ok e p junk (concat f ++ 0%N :: repeat junk (29 - length (concat f))) f all) with (ids := ids) (idc := idc) (i := 0) (static := static)
    as (o & s' & -> & R' & FL); auto.
  { split; [|exact V]. split; [exact N0|]. eauto. }
  cbn [rbind]. assert (o = name f) as ->.
  { eapply first_label_unique; [exact FL|]. exact (NM f V). }
  destruct (name f) as [k|] eqn:EN; cbn [option_map plus].
  - exists s'. split; [exact R'|].
    destruct (count_label scnum i l q k t) as [t'| | |]; cbn [rbind]; try reflexivity.
    replace (length (concat f) + 1) with (length (concat f ++ [b])) by (rewrite app_length; reflexivity).
    replace (concat f ++ b :: m) with ((concat f ++ [b]) ++ m) by (now rewrite <- app_assoc). rewrite adv_app. reflexivity.
  - reflexivity.
Qed.

Lemma loop_ok e p junk ids idc name scnum i l all : Forall2 (text_in e) ids idc -> (forall a, In a idc -> incl a all) ->
  names e p idc name -> forall fs fuel q static t j, fs <> [] -> Forall (good_field e) fs -> (forall f, In f fs -> incl f all) ->
  length fs + 1 <= fuel -> roomy static all ->
  follows all (label_loop fuel e p junk ids scnum i l (join fs ++ 62%N :: 0%N :: j) q static t) (run (field_mentions name scnum i l q fs) t).
Proof.
  intros IDS IA NM fs. induction fs as [|f fs IH]; intros fuel q static t j NE G IN FU R; [congruence|].
  destruct fuel as [|fuel]; [cbn [length] in FU; lia|].
  pose proof (Forall_inv G) as Gf. pose proof (Forall_inv_tail G) as Gt.
  destruct fs as [|f2 fs].
  - cbn [join field_mentions]. rewrite app_nil_r. destruct f as [|c f].
    + cbn [concat app label_loop rd rbind]. rewrite orb_true_r. cbn [run follows]. eauto.
    + assert (NE' : c :: f <> []) by discriminate.
      pose proof (field_step e p junk ids idc name scnum i l all (c :: f) 62%N (0%N :: j) fuel q static t IDS IA (IN _ (or_introl eq_refl)) NM Gf NE' eq_refl R) as H.
      cbn [run]. destruct (name (c :: f)) as [k|]; [|exact H]. destruct H as (s' & R' & ->).
      destruct (count_label scnum i l q k t) as [t'| | |]; cbn [rbind]; try reflexivity.
      destruct fuel as [|fuel]; [cbn [length] in FU; lia|]. cbn [label_loop rd rbind]. rewrite N.eqb_refl. cbn [orb run follows]. eauto.
  - change (join (f :: f2 :: fs)) with (concat f ++ 44%N :: join (f2 :: fs)). rewrite <- app_assoc. cbn [app].
    assert (IN' : forall g, In g (f2 :: fs) -> incl g all) by (intros g I; apply IN; right; exact I).
    assert (FU' : length (f2 :: fs) + 1 <= fuel) by (cbn [length] in *; lia).
    assert (NE2 : f2 :: fs <> []) by discriminate.
    destruct f as [|c f].
    + change (field_mentions name scnum i l q ([] :: f2 :: fs)) with (field_mentions name scnum i l (S q) (f2 :: fs)).
      cbn [concat app]. cbn [label_loop rd rbind]. change (44 =? 0)%N with false. change (44 =? 62)%N with false. change (44 =? 60)%N with false.
      rewrite N.eqb_refl. cbn [orb negb rbind]. rewrite Nat.eqb_refl. cbn [negb]. rewrite Sgml_Proofs1.adv1. cbn [rbind].
      apply IH; auto.
    + assert (NE' : c :: f <> []) by discriminate.
      change (field_mentions name scnum i l q ((c :: f) :: f2 :: fs)) with ((scnum, name (c :: f), q, i, l) :: field_mentions name scnum i l (S q) (f2 :: fs)).
      pose proof (field_step e p junk ids idc name scnum i l all (c :: f) 44%N (join (f2 :: fs) ++ 62%N :: 0%N :: j) fuel q static t IDS IA (IN _ (or_introl eq_refl)) NM Gf NE' eq_refl R) as H.
      cbn [run]. destruct (name (c :: f)) as [k|]; [|exact H]. destruct H as (s' & R' & ->).
      destruct (count_label scnum i l q k t) as [t'| | |]; cbn [rbind]; try reflexivity.
      apply IH; auto.
Qed.

Lemma join_len e fs : fs <> [] -> Forall (good_field e) fs -> length fs <= length (join fs) + 1.
Proof.
  intros NE F. induction F as [|f fs H F IH]; [congruence|]. destruct fs as [|f2 fs]; [cbn; lia|].
  change (join (f :: f2 :: fs)) with (concat f ++ 44%N :: join (f2 :: fs)). rewrite app_length. cbn [length] in *.
  specialize (IH ltac:(discriminate)). lia.
Qed.

Definition used (all : chars) (u : utt) : Prop := match u_fields u with Some fs => forall f, In f fs -> incl f all | None => True end.
Lemma sentence_ok e p junk ids idc name scnum i all s u static t : Forall2 (text_in e) ids idc -> (forall a, In a idc -> incl a all) ->
  names e p idc name -> sentence_is e s u -> used all u -> roomy static all ->
  follows all (label_sentence e p junk ids scnum i s (static, t)) (run (utt_mentions name scnum i u) t).
Proof.
  intros IDS IA NM [EV S] US R. unfold label_sentence, utt_mentions, used in *.
  destruct (t_labels s) as [m|], (u_fields u) as [fs|]; try contradiction.
  - destruct S as ((N0 & j & ->) & NE & G). cbn [app rd rbind]. rewrite Sgml_Proofs1.adv1. cbn [rbind]. rewrite N.eqb_refl. cbn [fst snd].
    rewrite EV, <- app_assoc. cbn [app]. eapply loop_ok; eauto.
    rewrite app_length. cbn [length]. pose proof (join_len e fs NE G). lia.
  - cbn [run follows]. eauto.
Qed.
Lemma group_ok e p junk ids idc name scnum i all : Forall2 (text_in e) ids idc -> (forall a, In a idc -> incl a all) ->
  names e p idc name -> forall ss us, Forall2 (sentence_is e) ss us -> Forall (used all) us -> forall static t, roomy static all ->
  follows all (label_group e p junk ids scnum i ss (static, t)) (run (group_mentions name scnum i us) t).
Proof.
  intros IDS IA NM ss us F. induction F as [|s u ss us S F IH]; intros US static t R; [cbn; eauto|].
  cbn [label_group group_mentions flat_map]. rewrite run_app. inversion US; subst. apply follows_bind.
  - eapply sentence_ok; eauto.
  - intros s' t' R'. apply IH; auto.
Qed.
Lemma groups_ok e p junk ids idc name scnum all : Forall2 (text_in e) ids idc -> (forall a, In a idc -> incl a all) ->
  names e p idc name -> forall gs gus, Forall2 (Forall2 (sentence_is e)) gs gus -> Forall (Forall (used all)) gus -> forall i static t, roomy static all ->
  follows all (label_groups e p junk ids scnum i gs (static, t)) (run (groups_mentions name scnum i gus) t).
Proof.
  intros IDS IA NM gs gus F. induction F as [|ss us gs gus S F IH]; intros US i static t R; [cbn; eauto|].
  cbn [label_groups groups_mentions]. rewrite run_app. inversion US; subst. apply follows_bind.
  - eapply group_ok; eauto.
  - intros s' t' R'. apply IH; auto.
Qed.
Definition in_test (all : chars) (t : test) : Prop := (forall a, In a (k_ids t) -> incl a all) /\ Forall (Forall (used all)) (k_grps t).
Lemma systems_ok e p junk all : forall ys ts, Forall2 (fun y t => system_is e y (fst t) /\ names e p (k_ids (fst t)) (snd t)) ys ts ->
  Forall (fun t => in_test all (fst t)) ts -> forall scnum static t, roomy static all ->
  follows all (compute_systems e p junk scnum ys (static, t)) (run (tests_mentions scnum ts) t).
Proof.
  intros ys ts F. induction F as [|y [tt name] ys ts [[S1 S2] NM] F IH]; intros IT scnum static t R; [cbn; eauto|].
  cbn [compute_systems tests_mentions]. rewrite run_app. inversion IT as [|? ? [IA US] IT']; subst. cbn [fst snd] in *. apply follows_bind.
  - eapply groups_ok; eauto.
  - intros s' t' R'. apply IH; auto.
Qed.
Lemma chars_in_test t all : incl (test_chars t) all -> in_test all t.
Proof.
  intros H. unfold test_chars in H. split.
  - intros a I c J. apply H. apply in_or_app. left. apply in_concat. eauto.
  - apply Forall_forall. intros g I. apply Forall_forall. intros u J. unfold used. destruct (u_fields u) as [fs|] eqn:E; [|exact Logic.I].
    intros f K c M. apply H. apply in_or_app. right. apply in_concat. exists (concat fs). split.
    + apply in_map_iff. exists u. rewrite E. split; [reflexivity|]. apply in_concat. eauto.
    + apply in_concat. eauto.
Qed.
