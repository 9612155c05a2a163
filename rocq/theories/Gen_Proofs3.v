From Coq Require Import String.
From Coq Require Import List ZArith NArith Arith QArith Bool Lia Sorting.Sorted.
From Verif Require Import Base Sgml_Model Skip_Model Gen_Model Gen_Spec.
Import ListNotations.
Local Open Scope nat_scope.
Local Open Scope list_scope.

(** ** Systems *)
Lemma same_spec (a b : list N) : reflect (a = b) (Scores_Model.same a b).
Proof. unfold Scores_Model.same. destruct (list_eq_dec N.eq_dec a b); constructor; assumption. Qed.
Lemma leb_total a b : Segm_Model.str_leb a b = false -> Segm_Model.str_leb b a = true.
Proof.
  revert b. induction a as [|x a IH]; intros [|y b]; cbn [Segm_Model.str_leb]; try discriminate; try reflexivity.
  destruct (N.eqb_spec x y) as [->|D].
  - rewrite N.eqb_refl. apply IH.
  - destruct (N.eqb_spec y x); [congruence|]. rewrite N.ltb_ge, N.ltb_lt. lia.
Qed.
Lemma leb_trans a b c : Segm_Model.str_leb a b = true -> Segm_Model.str_leb b c = true -> Segm_Model.str_leb a c = true.
Proof.
  revert b c. induction a as [|x a IH]; intros [|y b] [|z c]; cbn [Segm_Model.str_leb]; try discriminate; try reflexivity.
  destruct (N.eqb_spec x y) as [->|D], (N.eqb_spec y z) as [->|D']; intros A C.
  - eapply IH; eassumption.
  - exact C.
  - destruct (N.eqb_spec x z); [congruence|]. exact A.
  - apply N.ltb_lt in A, C. destruct (N.eqb_spec x z); [lia|]. apply N.ltb_lt. lia.
Qed.
Lemma leb_antisym a b : Segm_Model.str_leb a b = true -> Segm_Model.str_leb b a = true -> a = b.
Proof.
  revert b. induction a as [|x a IH]; intros [|y b]; cbn [Segm_Model.str_leb]; try discriminate; try reflexivity.
  destruct (N.eqb_spec x y) as [->|D]. { rewrite N.eqb_refl. intros. f_equal. apply IH; assumption. }
  destruct (N.eqb_spec y x); [congruence|]. rewrite !N.ltb_lt. lia.
Qed.
Definition below {A} (a b : list N * A) : Prop := Segm_Model.str_leb (fst a) (fst b) = true /\ fst a <> fst b.
Lemma below_trans {A} (a b c : list N * A) : below a b -> below b c -> below a c.
Proof.
  intros [P Q] [R S]. split; [eapply leb_trans; eassumption|]. intros E. rewrite E in *. apply Q, leb_antisym; assumption.
Qed.
Lemma put_in {A} (k : list N) (v : A) m x : StronglySorted below m ->
  (In x (map_put k v m) <-> x = (k, v) \/ (In x m /\ fst x <> k)).
Proof.
  induction m as [|[k' v'] m IH]; intros K; cbn [map_put]. { cbn. intuition congruence. }
  inversion K as [|? ? K1 K2]; subst. destruct (same_spec k k') as [<-|D].
  - cbn [In]. split.
    + intros [<-|I]; [left; reflexivity|right]. split; [right; exact I|]. rewrite Forall_forall in K2. destruct (K2 x I) as [_ J]. cbn in J. congruence.
    + intros [->|[[<-|I] J]]; [left; reflexivity|cbn in J; congruence|right; exact I].
  - destruct (Segm_Model.str_leb k k') eqn:L; cbn [In].
    + split.
      * intros [<-|[<-|I]]; [left; reflexivity|right; split; [left; reflexivity|cbn; congruence]|right; split; [right; exact I|]].
        rewrite Forall_forall in K2. destruct (K2 x I) as [J J']. cbn in J, J'. intros E. rewrite E in *. apply D, leb_antisym; assumption.
      * intros [->|[I J]]; [left; reflexivity|right; exact I].
    + rewrite (IH K1). cbn. split.
      * intros [<-|[->|[I J]]]; [right; split; [left; reflexivity|cbn; congruence]|left; reflexivity|right; split; [right; exact I|exact J]].
      * intros [->|[[<-|I] J]]; [right; left; reflexivity|left; reflexivity|right; right; split; assumption].
Qed.
Lemma put_sorted {A} (k : list N) (v : A) m : StronglySorted below m -> StronglySorted below (map_put k v m).
Proof.
  induction m as [|[k' v'] m IH]; intros K; cbn [map_put]. { repeat constructor. }
  pose proof K as K0. inversion K as [|? ? K1 K2]; subst. destruct (same_spec k k') as [<-|D].
  - constructor; [exact K1|]. eapply Forall_impl; [|exact K2]. intros x [P Q]. split; assumption.
  - destruct (Segm_Model.str_leb k k') eqn:L.
    + constructor; [exact K0|]. assert (J : below (k, v) (k', v')) by (split; assumption). constructor; [exact J|].
      eapply Forall_impl; [|exact K2]. intros x H. eapply below_trans; eassumption.
    + constructor; [apply IH, K1|]. apply Forall_forall. intros x I. apply (put_in k v m x K1) in I as [->|[I _]].
      * split; [apply leb_total, L|cbn; congruence].
      * rewrite Forall_forall in K2. apply K2, I.
Qed.
Notation name_of := system_name.
Definition loaded {A} (l : list (str * str * A)) (st : list (str * A) * list (str * str)) : Prop :=
  StronglySorted below (fst st) /\
  snd st = map (fun s => (name_of s, fst (fst s))) l /\
  forall t v, In (t, v) (fst st) <-> exists a s b, l = a ++ s :: b /\ name_of s = t /\ snd s = v /\ Forall (fun x => name_of x <> t) b.
Lemma load_one {A} l st (s : str * str * A) : loaded l st -> loaded (l ++ [s]) (load_step st s).
Proof.
  destruct st as [sets sys]. destruct s as [[file title] set]. intros (I1 & I2 & I3). cbn [fst snd load_step] in *. subst sys.
  split; [apply put_sorted, I1|]. split; [rewrite map_app; reflexivity|].
  intros t v. cbn [fst load_step]. rewrite (put_in _ _ _ _ I1), I3. cbn [fst]. split.
  - intros [E|[(a & s & b & E & E1 & E2 & F) J]].
    + injection E as -> ->. exists l, (file, title, set), []. auto.
    + exists a, s, (b ++ [(file, title, set)]). rewrite E, <- app_assoc. repeat split; auto. apply Forall_app. split; [exact F|]. constructor; [|constructor].
      intros Q. apply J. symmetry. exact Q.
  - intros (a & s & b & E & E1 & E2 & F). destruct b as [|x b' _] using rev_ind.
    + apply app_inj_tail in E as [_ <-]. left. cbn [snd] in E2. rewrite <- E1, <- E2. reflexivity.
    + change (s :: b' ++ [x]) with ((s :: b') ++ [x]) in E. rewrite app_assoc in E. apply app_inj_tail in E as [E <-].
      apply Forall_app in F as [F1 F2]. right. split; [exists a, s, b'; auto|]. intros Q. apply (Forall_inv F2). symmetry. exact Q.
Qed.
Lemma load_all {A} (l : list (str * str * A)) : loaded l (load_generic l).
Proof.
  unfold load_generic. rewrite <- (rev_involutive l). induction (rev l) as [|s m IH].
  - split; [constructor|]. split; [reflexivity|]. intros t v. split; [intros []|]. intros (a & s & b & E & _). destruct a; discriminate.
  - cbn [rev]. rewrite fold_left_app. cbn [fold_left]. apply load_one, IH.
Qed.

(** ** Groups *)
Lemma align_aligned c align gs l : align_generic c align gs = Ok l -> aligned c align gs l.
Proof.
  revert l. induction gs as [|g gs IH]; intros l E; cbn [align_generic] in E. { injection E as <-. constructor. }
  destruct (decide c g) as [o| | |] eqn:D; cbn [rbind] in E; try discriminate. destruct o as [b|w].
  - destruct (total_duration g); cbn [rbind] in E; try discriminate. destruct (align_generic c align gs) as [m| | |] eqn:F; cbn [rbind] in E; try discriminate.
    injection E as <-. apply al_take; [exact D|apply IH; reflexivity].
  - eapply al_skip; [exact D|apply IH; exact E].
Qed.
Lemma align_total c align gs : (forall g, In g gs -> exists o, decide c g = Ok o) -> (forall g b, In g gs -> decide c g = Ok (Aligned b) -> (min_time g < max_time g)%Z) ->
  exists l, align_generic c align gs = Ok l.
Proof.
  induction gs as [|g gs IH]; intros D T; [exists []; reflexivity|].
  destruct IH as [l E]; [intros h I; apply D; right; exact I|intros h b I; apply T; right; exact I|].
  destruct (D g ltac:(left; reflexivity)) as [o Do]. cbn [align_generic]. rewrite Do. cbn [rbind]. destruct o as [b|w].
  - specialize (T g b ltac:(left; reflexivity) Do). unfold total_duration. replace (max_time g - min_time g <=? 0)%Z with false by lia.
    cbn [rbind]. rewrite E. cbn [rbind]. eexists. reflexivity.
  - exists l. exact E.
Qed.
Lemma uint_pos m : (0 <= to_uint m)%Z.
Proof. unfold to_uint. apply Z.mod_pos_bound. lia. Qed.
Lemma decide_max c m g : no_refs g -> decide (with_max c m) g = decide c g.
Proof.
  intros R. unfold no_refs in R. unfold decide, with_max. cbn [max_speakers min_speakers only_group max_gb difficulty_gb min_difficulty_gb compression force_compression]. rewrite R. cbn [length]. change (Z.of_nat 0) with 0%Z.
  pose proof (uint_pos m). pose proof (uint_pos (max_speakers c)). cbv zeta.
  replace (to_uint m <? 0)%Z with false by lia. replace (to_uint (max_speakers c) <? 0)%Z with false by lia. reflexivity.
Qed.
Lemma decide_min c g : no_refs g -> (0 < to_uint (min_speakers c))%Z -> (exists n, cells_of_gb (max_gb c) = Ok n) ->
  decide c g = Ok (Skipped (match only_group c with Some id => if (gid g =? id)%Z then FewSpeakers else OtherGroup | None => FewSpeakers end)).
Proof.
  intros R P [n E]. unfold no_refs in R. unfold decide. rewrite E. cbn [rbind].
  assert (T : exists k, cells_of_gb (2 # 1)%Q = Ok k) by (eexists; vm_compute; reflexivity). destruct T as [k ->]. cbn [rbind]. cbv zeta.
  unfold is_ignore_in_scoring. rewrite R. cbn [existsb length]. change (Z.of_nat 0) with 0%Z.
  pose proof (uint_pos (max_speakers c)). replace (to_uint (max_speakers c) <? 0)%Z with false by lia. replace (0 <? to_uint (min_speakers c))%Z with true by lia.
  destruct (only_group c) as [id|]; [|reflexivity]. destruct (gid g =? id)%Z; reflexivity.
Qed.

(** ** Text that is not escaped *)
Lemma lex_amp m acc s : In 38%N s -> lex m acc s = None.
Proof.
  revert m acc. induction s as [|b s IH]; intros m acc I; [destruct I|]. cbn [lex]. destruct (N.eqb_spec b 38) as [_|D]; [reflexivity|].
  destruct I as [I|I]; [congruence|]. destruct m as [|q].
  - destruct (b =? 60)%N; [rewrite (IH _ _ I); reflexivity|apply IH, I].
  - destruct (b =? 60)%N; [reflexivity|]. destruct (b =? 34)%N; [apply IH, I|]. destruct ((b =? 62)%N && negb q); [rewrite (IH _ _ I); reflexivity|apply IH, I].
Qed.
Lemma text_in systems l c t b : In c (concat l) -> In (Some t) c -> In b (k_text t) -> In b (report_text systems l).
Proof.
  intros Ic It Ib. unfold report_text. do 13 (apply in_or_app; right). apply in_or_app. left.
  apply in_concat in Ic as (g & Ig & Ic). apply in_concat. exists (concat (map (column_text (length systems)) g)).
  split; [apply in_map_iff; exists g; auto|]. apply in_concat. exists (column_text (length systems) c). split; [apply in_map, Ic|].
  unfold column_text. cbv zeta. do 6 (apply in_or_app; right). apply in_or_app. left. apply in_concat. exists (word_line (Some t)). split; [apply in_map, It|].
  unfold word_line. do 5 (apply in_or_app; right). apply in_or_app. left. exact Ib.
Qed.
Lemma amp_document systems l c t : In c (concat l) -> In (Some t) c -> In 38%N (k_text t) -> document (report_text systems l) = None.
Proof. intros Ic It Ib. unfold document. rewrite (lex_amp _ _ _ (text_in systems l c t 38%N Ic It Ib)). reflexivity. Qed.
