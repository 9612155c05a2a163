(** Proofs about the label tables. *)
From Coq Require Import String Ascii.
From Coq Require Import List ZArith NArith Arith Bool Lia.
From Verif Require Import Base Text_Model Text_Spec Text_Proofs1 Case_Model Case_Spec Sgml_Model Sgml_Spec Sgml_Proofs1 Lur_Model Lur_Spec.
Import ListNotations.
Local Open Scope list_scope.

Definition hc (e : enc) (c : list N) : Prop := is_char e c /\ high_multibyte c.

Lemma hc_quote e c : hc e c -> In 34%N c -> c = [34%N].
Proof.
  intros [(l & r & -> & _ & _) H] I. destruct r as [|x r].
  - destruct I as [->|[]]. reflexivity.
  - unfold high_multibyte in H. cbn [length] in H. specialize (H ltac:(lia)). rewrite Forall_forall in H. specialize (H _ I). lia.
Qed.
Lemma hc_no0 e cs : Forall (hc e) cs -> ~ In 0%N (concat cs).
Proof. intros H. apply (chars_no0 e). eapply Forall_impl; [|exact H]. intros c [C _]. exact C. Qed.
Lemma hc_text e cs : Forall (hc e) cs -> text e (concat cs).
Proof.
  intros H. exists cs. split; [split; [reflexivity|]|]; (eapply Forall_impl; [|exact H]; intros c [C D]; assumption).
Qed.
Lemma text_hc e s : text e s -> exists cs, s = concat cs /\ Forall (hc e) cs.
Proof.
  intros (cs & (-> & F) & H). exists cs. split; [reflexivity|]. rewrite Forall_forall in *. intros c I. split; auto.
Qed.
Lemma first_quote e cs : Forall (hc e) cs ->
  (exists p r, cs = p ++ [34%N] :: r /\ no_quote (concat p)) \/ no_quote (concat cs).
Proof.
  induction 1 as [|c cs H F IH]; [right; intros []|].
  destruct (in_dec N.eq_dec 34%N c) as [I|I].
  - left. exists [], cs. split; [now rewrite (hc_quote e c H I)|intros []].
  - destruct IH as [(p & r & -> & N)|N].
    + left. exists (c :: p), r. split; [reflexivity|]. cbn [concat]. intros J. apply in_app_or in J as [J|J]; auto.
    + right. cbn [concat]. intros J. apply in_app_or in J as [J|J]; auto.
Qed.
Lemma cut_unique (p p' x x' : list N) : no_quote p -> no_quote p' -> p ++ 34%N :: x = p' ++ 34%N :: x' -> p = p' /\ x = x'.
Proof.
  revert p'. induction p as [|b p IH]; intros [|b' p'] H H' E; cbn [app] in E.
  - injection E as ->. auto.
  - injection E as <- E. exfalso. apply H'. left. reflexivity.
  - injection E as -> E. exfalso. apply H. left. reflexivity.
  - injection E as -> E. destruct (IH p') as [-> ->]; auto; intros I; [apply H|apply H']; right; exact I.
Qed.

Definition two_quotes (s v r : list N) : Prop := exists p, s = p ++ 34%N :: v ++ 34%N :: r /\ no_quote p /\ no_quote v.
Lemma next_quoted_spec e cs j : Forall (hc e) cs ->
  (exists v r, next_quoted (concat cs ++ 0%N :: j) = Ok (Some (concat v, concat r ++ 0%N :: j))
     /\ two_quotes (concat cs) (concat v) (concat r) /\ Forall (hc e) v /\ Forall (hc e) r)
  \/ (next_quoted (concat cs ++ 0%N :: j) = Ok None /\ forall v r, ~ two_quotes (concat cs) v r).
Proof.
  intros F. unfold next_quoted. destruct (first_quote e cs F) as [(p & r & -> & NP)|N].
  - apply Forall_app in F as [Fp Fr]. apply Forall_inv_tail in Fr. rewrite concat_app. cbn [concat]. rewrite <- !app_assoc. cbn [app].
    rewrite strchr_found by (auto; now apply hc_no0 with e). cbn [rbind]. rewrite adv_plus. cbn [rbind].
    destruct (first_quote e r Fr) as [(v & s & -> & NV)|N].
    + left. apply Forall_app in Fr as [Fv Fs]. apply Forall_inv_tail in Fs. exists v, s.
      rewrite concat_app. cbn [concat]. rewrite <- !app_assoc. cbn [app].
      rewrite strchr_found by (auto; now apply hc_no0 with e). cbn [rbind]. rewrite bdup_ok by (now apply hc_no0 with e). cbn [rbind].
      rewrite adv_plus. cbn [rbind]. split; [reflexivity|]. split; [|auto]. exists (concat p). auto.
    + right. rewrite strchr_none by (auto; try lia; now apply hc_no0 with e). split; [reflexivity|].
      intros v s (p' & E & NP' & NV). apply cut_unique in E as [_ E]; auto. apply N. rewrite E. apply in_or_app. right. left. reflexivity.
  - right. rewrite strchr_none by (auto; try lia; now apply hc_no0 with e). split; [reflexivity|].
    intros v s (p' & E & _). apply N. rewrite E. apply in_or_app. right. left. reflexivity.
Qed.

Definition lab_text (e : enc) (x : label) : Prop := text e (lb_id x) /\ text e (lb_title x) /\ text e (lb_desc x).
Lemma same_refl s : Scores_Model.same s s = true.
Proof. unfold Scores_Model.same. destruct (list_eq_dec _ s s); congruence. Qed.
Lemma same_eq a b : Scores_Model.same a b = true -> a = b.
Proof. unfold Scores_Model.same. destruct (list_eq_dec _ a b); congruence. Qed.
Lemma same_label_spec e a b : lab_text e a -> lab_text e b -> exists s, same_label e a b = Ok s /\ (s = true <-> a = b).
Proof.
  intros (A1 & A2 & A3) (B1 & B2 & B3). unfold same_label.
  rewrite (teq_ok e) by assumption. cbn [rbind]. destruct (Scores_Model.same (lb_id a) (lb_id b)) eqn:E1; cbn [negb].
  2:{ exists false. split; [reflexivity|]. split; [discriminate|]. intros ->. rewrite same_refl in E1. discriminate. }
  rewrite (teq_ok e) by assumption. cbn [rbind]. destruct (Scores_Model.same (lb_title a) (lb_title b)) eqn:E2; cbn [negb].
  2:{ exists false. split; [reflexivity|]. split; [discriminate|]. intros ->. rewrite same_refl in E2. discriminate. }
  rewrite (teq_ok e) by assumption. exists (Scores_Model.same (lb_desc a) (lb_desc b)). split; [reflexivity|]. split.
  - intros E3. apply same_eq in E1, E2, E3. destruct a, b; cbn in *; congruence.
  - intros ->. apply same_refl.
Qed.
Lemma is_new_spec e x l : lab_text e x -> Forall (lab_text e) l -> exists b, is_new e x l = Ok b /\ (b = true <-> ~ In x l).
Proof.
  intros X. induction 1 as [|y l Y F IH]; cbn [is_new].
  - exists true. split; [reflexivity|]. split; auto.
  - destruct (same_label_spec e x y X Y) as (s & -> & S). cbn [rbind]. destruct IH as (n & -> & Hn). cbn [rbind].
    exists (negb s && n). split; [reflexivity|]. rewrite andb_true_iff, negb_true_iff, Hn. split.
    + intros [S0 N] [->|I]; [|contradiction]. assert (s = true) by now apply S. congruence.
    + intros N. split; [|intros I; apply N; right; exact I]. destruct s; [|reflexivity]. exfalso. apply N. left. symmetry. now apply S.
Qed.

Definition three_quoted (s : list N) (x : label) : Prop :=
  exists r1 r2 r3, two_quotes s (lb_id x) r1 /\ two_quotes r1 (lb_title x) r2 /\ two_quotes r2 (lb_desc x) r3.
Lemma two_unique s v r v' r' : two_quotes s v r -> two_quotes s v' r' -> v = v' /\ r = r'.
Proof.
  intros (p & E & P & V) (p' & E' & P' & V'). rewrite E in E'. apply cut_unique in E' as [_ E']; auto. apply cut_unique in E' as [-> ->]; auto.
Qed.
Lemma declares_iff kw line x : no_quote kw -> (declares kw line x <-> (exists r, line = kw ++ r) /\ three_quoted line x).
Proof.
  intros NK. split.
  - intros (p & q & r & rest & -> & H1 & H2 & H3 & H4 & H5 & H6). split; [eauto|].
    exists (q ++ 34%N :: lb_title x ++ 34%N :: r ++ 34%N :: lb_desc x ++ 34%N :: rest), (r ++ 34%N :: lb_desc x ++ 34%N :: rest), rest.
    split; [|split].
    + exists (kw ++ p). split; [now rewrite <- app_assoc|]. split; [|assumption]. intros I. apply in_app_or in I as [I|I]; auto.
    + exists q. auto.
    + exists r. auto.
  - intros [[z E] (r1 & r2 & r3 & (p1 & E1 & A1 & B1) & (p2 & -> & A2 & B2) & (p3 & -> & A3 & B3))].
    assert (exists p, p1 = kw ++ p) as [p ->].
    { subst line. clear -E1 NK A1. revert p1 E1 A1 NK. induction kw as [|k kw IH]; intros p1 E A1 NK; [exists p1; reflexivity|].
      destruct p1 as [|b p1]; cbn [app] in E; injection E as E0 E.
      - exfalso. apply NK. left. auto.
      - subst b. destruct (IH p1 E) as [p ->]; [intros I; apply A1; right; exact I|intros I; apply NK; right; exact I|]. exists p. reflexivity. }
    exists p, p2, p3, r3. rewrite E1, <- !app_assoc. cbn [app]. repeat split; auto.
    intros I. apply A1. apply in_or_app. right. exact I.
Qed.

Lemma add_label_spec e l cs j : Forall (lab_text e) l -> Forall (hc e) cs ->
  (exists x, three_quoted (concat cs) x /\ lab_text e x
     /\ ((~ In x l /\ add_label e l (concat cs ++ 0%N :: j) = Ok (l ++ [x])) \/ (In x l /\ add_label e l (concat cs ++ 0%N :: j) = Ok l)))
  \/ ((forall x, ~ three_quoted (concat cs) x) /\ add_label e l (concat cs ++ 0%N :: j) = Ok l).
Proof.
  intros FL F. unfold add_label. destruct (next_quoted_spec e cs j F) as [(i & r1 & -> & T1 & Fi & F1)|[-> N]]; cbn [rbind].
  2:{ right. split; [|reflexivity]. intros x (r1 & _ & _ & T & _). exact (N _ _ T). }
  destruct (next_quoted_spec e r1 j F1) as [(t & r2 & -> & T2 & Ft & F2)|[-> N]]; cbn [rbind].
  2:{ right. split; [|reflexivity]. intros x (r & r' & _ & T & T' & _). destruct (two_unique _ _ _ _ _ T1 T) as [_ <-]. exact (N _ _ T'). }
  destruct (next_quoted_spec e r2 j F2) as [(d & r3 & -> & T3 & Fd & F3)|[-> N]]; cbn [rbind].
  2:{ right. split; [|reflexivity]. intros x (r & r' & r'' & T & T' & T''). destruct (two_unique _ _ _ _ _ T1 T) as [_ <-].
      destruct (two_unique _ _ _ _ _ T2 T') as [_ <-]. exact (N _ _ T''). }
  left. cbv zeta. set (x := {| lb_id := concat i; lb_title := concat t; lb_desc := concat d |}).
  assert (X : lab_text e x) by (repeat split; apply hc_text; assumption).
  exists x. split; [exists (concat r1), (concat r2), (concat r3); auto|]. split; [exact X|].
  destruct (is_new_spec e x l X FL) as (b & -> & Hb). cbn [rbind]. destruct b.
  - left. split; [now apply Hb|reflexivity].
  - right. split; [|reflexivity].
    assert (D : forall u v : label, {u = v} + {u <> v}) by (repeat decide equality).
    destruct (in_dec D x l) as [I|I]; [exact I|]. apply Hb in I. discriminate.
Qed.

(** ** the keyword *)
Lemma prefix_chars e ks : forall cs r, Forall (is_char e) ks -> Forall (is_char e) cs -> concat cs = concat ks ++ r ->
  exists cs', cs = ks ++ cs'.
Proof.
  induction ks as [|k ks IH]; intros cs r K C E; [eexists; reflexivity|].
  inversion K as [|? ? K1 K2]; subst. cbn [concat] in E. rewrite <- app_assoc in E. destruct cs as [|c cs].
  - destruct K1 as (b & t & -> & _). discriminate.
  - inversion C as [|? ? C1 C2]; subst. cbn [concat] in E. apply (char_prefix e) in E as [-> E]; [|assumption|assumption].
    destruct (IH cs r K2 C2 E) as [cs' ->]. eexists. reflexivity.
Qed.
Lemma starts_kw e kw ks n cs j : concat ks = kw -> Forall (is_char e) ks -> length ks = Pos.to_nat n -> Forall (is_char e) cs ->
  exists z, strccmp e (concat cs ++ 0%N :: j) (cstr kw) (Z.pos n) = Ok z /\ ((z =? 0)%Z = true <-> exists r, concat cs = kw ++ r).
Proof.
  intros <- K L C.
  assert (H1 : holds (concat cs ++ 0%N :: j) (concat cs)) by (split; [now apply (chars_no0 e)|eauto]).
  assert (H2 : holds (cstr (concat ks)) (concat ks)) by (split; [now apply (chars_no0 e)|exists []; reflexivity]).
  rewrite (strccmp_lex e _ _ (concat cs) (concat ks) cs ks (Z.pos n) H1 H2) by (try (split; [reflexivity|assumption]); lia).
  eexists. split; [reflexivity|]. change (Z.pos n =? -1)%Z with false. cbv iota. rewrite lex_ccmp_eq.
  change (Z.to_nat (Z.pos n)) with (Pos.to_nat n). rewrite <- L, firstn_all. split.
  - intros E. exists (concat (skipn (length ks) cs)).
    assert (Q : concat cs = concat (firstn (length ks) cs) ++ concat (skipn (length ks) cs)) by (rewrite <- concat_app, firstn_skipn; reflexivity).
    rewrite E in Q. exact Q.
  - intros [r E]. destruct (prefix_chars e ks cs r K C E) as [cs' ->]. rewrite firstn_app, firstn_all, Nat.sub_diag. cbn [firstn]. apply app_nil_r.
Qed.
Definition singles (s : list N) : list (list N) := map (fun b => [b]) s.
Lemma singles_concat s : concat (singles s) = s.
Proof. induction s as [|b s IH]; [reflexivity|]. cbn [singles map concat app]. f_equal. exact IH. Qed.
Lemma singles_chars e s : forallb (fun b => (0 <? b)%N && (b <? 128)%N) s = true -> Forall (is_char e) (singles s).
Proof.
  intros H. rewrite forallb_forall in H. apply Forall_forall. intros c I. apply in_map_iff in I as (b & <- & J).
  specialize (H _ J). apply andb_prop in H as [H1 H2]. apply N.ltb_lt in H1, H2.
  exists b, []. split; [reflexivity|]. split; [|constructor; [lia|constructor]]. destruct e; cbn; auto; left; auto.
Qed.

Lemma comment_line_spec e labels cats m line : Forall (lab_text e) labels -> Forall (lab_text e) cats -> holds m line -> text e line ->
  exists b labels' cats', comment_line e labels cats m = Ok (b, labels', cats')
    /\ Forall (lab_text e) labels' /\ Forall (lab_text e) cats'
    /\ ((exists x, declares LABEL line x /\ ((~ In x labels /\ labels' = labels ++ [x]) \/ (In x labels /\ labels' = labels)))
        \/ ((forall x, ~ declares LABEL line x) /\ labels' = labels))
    /\ ((exists x, declares CATEGORY line x /\ ((~ In x cats /\ cats' = cats ++ [x]) \/ (In x cats /\ cats' = cats)))
        \/ ((forall x, ~ declares CATEGORY line x) /\ cats' = cats)).
Proof.
  intros FL FC (N0 & j & ->) T. destruct (text_hc e line T) as (cs & -> & F).
  assert (C : Forall (is_char e) cs) by (eapply Forall_impl; [|exact F]; intros c [Q _]; exact Q).
  assert (NL : no_quote LABEL) by (vm_compute; intuition discriminate).
  assert (NC : no_quote CATEGORY) by (vm_compute; intuition discriminate).
  assert (X : forall r r', LABEL ++ r = CATEGORY ++ r' -> False) by (intros r r' E; discriminate E).
  unfold comment_line.
  assert (IC : exists b, is_comment (concat cs ++ 0%N :: j) = Ok b /\ (b = false -> forall r, concat cs <> 59%N :: 59%N :: r)).
  { unfold is_comment. destruct (concat cs) as [|a [|b r]] eqn:E; cbn [app rd rbind].
    - exists false. split; [reflexivity|]. intros _ r. discriminate.
    - destruct (N.eqb_spec a 59); cbn [negb]; [|exists false; split; [reflexivity|discriminate]].
      rewrite adv1. cbn [rbind rd]. eexists. split; [reflexivity|]. intros _ r. discriminate.
    - destruct (N.eqb_spec a 59); cbn [negb]; [|exists false; split; [reflexivity|congruence]].
      rewrite adv1. cbn [rbind rd]. eexists. split; [reflexivity|]. intros B s Q. injection Q as _ -> _. rewrite N.eqb_refl in B. discriminate. }
  destruct IC as (b & -> & Hb). cbn [rbind]. destruct b; cbn [negb].
  2:{ exists false, labels, cats. split; [reflexivity|]. split; [exact FL|]. split; [exact FC|].
      split; right; (split; [|reflexivity]); intros x D; apply declares_iff in D; auto; destruct D as [[r E] _];
        exact (Hb eq_refl _ E). }
  destruct (starts_kw e LABEL (singles LABEL) 9 cs j) as (z & Z & HZ); auto using singles_concat; [apply singles_chars; reflexivity|].
  fold LABEL. rewrite Z. cbn [rbind].
  destruct (z =? 0)%Z eqn:EZ.
  - assert (P : exists r, concat cs = LABEL ++ r) by now apply HZ.
    assert (NOC : forall x, ~ declares CATEGORY (concat cs) x).
    { intros x D. apply declares_iff in D; auto. destruct D as [[r E] _], P as [r' E']. rewrite E in E'. symmetry in E'. exact (X _ _ E'). }
    destruct (add_label_spec e labels cs j FL F) as [(x & T3 & LX & [[NI ->]|[I ->]])|[NT ->]]; cbn [rbind].
    + exists true, (labels ++ [x]), cats. split; [reflexivity|]. split; [apply Forall_app; auto|]. split; [exact FC|]. split; [|right; auto].
      left. exists x. split; [apply declares_iff; auto|left; auto].
    + exists true, labels, cats. split; [reflexivity|]. split; [exact FL|]. split; [exact FC|]. split; [|right; auto].
      left. exists x. split; [apply declares_iff; auto|right; auto].
    + exists true, labels, cats. split; [reflexivity|]. split; [exact FL|]. split; [exact FC|]. split; [|right; auto].
      right. split; [|reflexivity]. intros x D. apply declares_iff in D; auto. exact (NT x (proj2 D)).
  - assert (NOL : forall x, ~ declares LABEL (concat cs) x).
    { intros x D. apply declares_iff in D; auto. destruct D as [P _]. apply HZ in P. congruence. }
    destruct (starts_kw e CATEGORY (singles CATEGORY) 12 cs j) as (z' & Z' & HZ'); auto using singles_concat; [apply singles_chars; reflexivity|].
    fold CATEGORY. rewrite Z'. cbn [rbind]. destruct (z' =? 0)%Z eqn:EZ'.
    + assert (P : exists r, concat cs = CATEGORY ++ r) by now apply HZ'.
      destruct (add_label_spec e cats cs j FC F) as [(x & T3 & LX & [[NI ->]|[I ->]])|[NT ->]]; cbn [rbind].
      * exists true, labels, (cats ++ [x]). split; [reflexivity|]. split; [exact FL|]. split; [apply Forall_app; auto|]. split; [right; auto|].
        left. exists x. split; [apply declares_iff; auto|left; auto].
      * exists true, labels, cats. split; [reflexivity|]. split; [exact FL|]. split; [exact FC|]. split; [right; auto|].
        left. exists x. split; [apply declares_iff; auto|right; auto].
      * exists true, labels, cats. split; [reflexivity|]. split; [exact FL|]. split; [exact FC|]. split; [right; auto|].
        right. split; [|reflexivity]. intros x D. apply declares_iff in D; auto. exact (NT x (proj2 D)).
    + exists true, labels, cats. split; [reflexivity|]. split; [exact FL|]. split; [exact FC|]. split; right; (split; [|reflexivity]); auto.
      intros x D. apply declares_iff in D; auto. destruct D as [P _]. apply HZ' in P. congruence.
Qed.

Lemma firsts_in xs out x : firsts xs out -> (In x xs <-> In x out).
Proof.
  induction 1 as [|xs out y F IH N|xs out y F IH I]; [tauto| |].
  - rewrite !in_app_iff, IH. tauto.
  - rewrite in_app_iff, IH. split; [|tauto]. intros [J|[<-|[]]]; [tauto|]. now apply IH.
Qed.
Lemma firsts_step xs out x out' : firsts xs out -> ((~ In x out /\ out' = out ++ [x]) \/ (In x out /\ out' = out)) -> firsts (xs ++ [x]) out'.
Proof.
  intros F [[N ->]|[I ->]].
  - apply firsts_new; auto. now rewrite (firsts_in _ _ _ F).
  - apply firsts_old; auto. now rewrite (firsts_in _ _ _ F).
Qed.
Lemma load_spec e ms lines : Forall2 (fun m l => holds m l /\ text e l) ms lines ->
  forall labels cats ax ay, Forall (lab_text e) labels -> Forall (lab_text e) cats -> firsts ax labels -> firsts ay cats ->
  exists ls cs xs ys, load_labels e labels cats ms = Ok (ls, cs) /\ declared LABEL lines xs /\ declared CATEGORY lines ys
    /\ firsts (ax ++ xs) ls /\ firsts (ay ++ ys) cs.
Proof.
  induction 1 as [|m line ms lines [H T] F IH]; intros labels cats ax ay FL FC AX AY.
  - exists labels, cats, [], []. rewrite !app_nil_r. repeat split; auto; constructor.
  - cbn [load_labels]. destruct (comment_line_spec e labels cats m line FL FC H T) as (b & labels' & cats' & -> & FL' & FC' & DL & DC).
    cbn [rbind snd].
    destruct DL as [(x & DX & SX)|[NX ->]], DC as [(y & DY & SY)|[NY ->]].
    + destruct (IH labels' cats' (ax ++ [x]) (ay ++ [y]) FL' FC' (firsts_step _ _ _ _ AX SX) (firsts_step _ _ _ _ AY SY)) as (ls & cs & xs & ys & E & D1 & D2 & F1 & F2).
      exists ls, cs, (x :: xs), (y :: ys). rewrite <- app_assoc in F1, F2. split; [exact E|]. repeat split; auto; constructor; auto.
    + destruct (IH labels' cats (ax ++ [x]) ay FL' FC' (firsts_step _ _ _ _ AX SX) AY) as (ls & cs & xs & ys & E & D1 & D2 & F1 & F2).
      exists ls, cs, (x :: xs), ys. rewrite <- app_assoc in F1. split; [exact E|]. repeat split; auto; constructor; auto.
    + destruct (IH labels cats' ax (ay ++ [y]) FL' FC' AX (firsts_step _ _ _ _ AY SY)) as (ls & cs & xs & ys & E & D1 & D2 & F1 & F2).
      exists ls, cs, xs, (y :: ys). rewrite <- app_assoc in F2. split; [exact E|]. repeat split; auto; constructor; auto.
    + destruct (IH labels cats ax ay FL' FC' AX AY) as (ls & cs & xs & ys & E & D1 & D2 & F1 & F2).
      exists ls, cs, xs, ys. split; [exact E|]. repeat split; auto; constructor; auto.
Qed.
