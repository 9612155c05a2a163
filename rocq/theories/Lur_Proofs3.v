(** Proofs about the subset scores: what the run over the mentions computes. *)
From Coq Require Import List ZArith NArith Arith Bool Lia.
From Verif Require Import Base Text_Model Case_Model Lur_Model Lur_Spec Lur_Proofs2.
Import ListNotations.
Local Open Scope list_scope.

(** ** changing an element *)
Lemma change_ok {A} (f : A -> res A) y : forall l i x, nth_error l i = Some x -> f x = Ok y ->
  exists l', change l i f = Ok l' /\ length l' = length l /\ forall j, nth_error l' j = if Nat.eqb j i then Some y else nth_error l j.
Proof.
  induction l as [|a l IH]; intros i x N F; [destruct i; discriminate|]. destruct i as [|i]; cbn [nth_error change] in *.
  - injection N as ->. rewrite F. cbn [rbind]. exists (y :: l). repeat split. intros [|j]; reflexivity.
  - destruct (IH i x N F) as (l' & -> & L & E). cbn [rbind]. exists (a :: l'). split; [reflexivity|]. split; [cbn; now rewrite L|].
    intros [|j]; [reflexivity|]. cbn [nth_error Nat.eqb]. apply E.
Qed.
Lemma change_exit {A} (f : A -> res A) : forall l i x, nth_error l i = Some x -> f x = Exit -> change l i f = Exit.
Proof.
  induction l as [|a l IH]; intros i x N F; [destruct i; discriminate|]. destruct i as [|i]; cbn [nth_error change] in *.
  - injection N as ->. now rewrite F.
  - now rewrite (IH i x N F).
Qed.

Definition dims (t : lab) (n K G : nat) : Prop :=
  length (location t) = K /\ length (lsc t) = n /\ Forall (fun a => length a = K /\ Forall (fun b => length b = G) a) (lsc t).
Definition loc (t : lab) (k : nat) : option nat := match nth_error (location t) k with Some o => o | None => None end.

Lemma nth_some {A} (l : list A) i : i < length l -> exists x, nth_error l i = Some x.
Proof. intros H. destruct (nth_error l i) eqn:E; [eauto|]. apply nth_error_None in E. lia. Qed.
Lemma forall_nth {A} (P : A -> Prop) l : (forall i x, nth_error l i = Some x -> P x) -> Forall P l.
Proof. intros H. apply Forall_forall. intros x I. apply In_nth_error in I as [i E]. eauto. Qed.

Lemma words_ref l : nref l = length (filter is_ref l) /\ nerr l = length (filter is_err l).
Proof.
  unfold nref, nerr. induction l as [|x l IH]; [auto|]. cbn [words filter]. destruct (words l) as [[[c s] n] d].
  destruct x; cbn [is_ref is_err length]; lia.
Qed.

Lemma count_ok n K G t i g l q k : dims t n K G -> i < n -> g < G -> k < K ->
  (loc t k <> None /\ loc t k <> Some q /\ count_label i g l q k t = Exit)
  \/ ((loc t k = None \/ loc t k = Some q) /\ exists t', count_label i g l q k t = Ok t' /\ dims t' n K G
       /\ (forall k', loc t' k' = if Nat.eqb k' k then Some q else loc t k')
       /\ forall i' k' g', cell t' i' k' g' = if Nat.eqb i' i && Nat.eqb k' k && Nat.eqb g' g
            then option_map (fun c => (fst c + length (filter is_ref l), snd c + length (filter is_err l))) (cell t i' k' g')
            else cell t i' k' g').
Proof.
  intros (DL & DN & DF) Hi Hg Hk. destruct (nth_some (location t) k ltac:(lia)) as [o EO].
  unfold count_label. assert (LT : loc t k = o) by (unfold loc; now rewrite EO).
  assert (CASE : (exists q', o = Some q' /\ q' <> q) \/ (o = None \/ o = Some q)).
  { destruct o as [q'|]; [|auto]. destruct (Nat.eq_dec q' q) as [->|]; [auto|left; eauto]. }
  destruct CASE as [(q' & -> & NQ)|CASE].
  - left. rewrite LT. split; [discriminate|]. split; [congruence|].
    rewrite (change_exit _ _ _ _ EO); [reflexivity|]. cbv beta iota. destruct (Nat.eqb_spec q' q); [contradiction|reflexivity].
  - right. rewrite LT. split; [exact CASE|].
    destruct (change_ok (fun o : option nat => match o with
                                                | None => Ok (Some q)
                                                | Some q0 => if Nat.eqb q0 q then Ok (Some q0) else Exit
                                                end) (Some q) (location t) k o EO) as (loc' & -> & LL & EL).
    { destruct CASE as [->| ->]; [reflexivity|]. now rewrite Nat.eqb_refl. }
    cbn [rbind]. destruct (nth_some (lsc t) i ltac:(lia)) as [a EA].
    assert (DA : length a = K /\ Forall (fun b => length b = G) a) by (rewrite Forall_forall in DF; apply DF; eapply nth_error_In; eauto).
    destruct DA as [DA DB]. destruct (nth_some a k ltac:(lia)) as [b EB].
    assert (DG : length b = G) by (rewrite Forall_forall in DB; apply DB; eapply nth_error_In; eauto).
    destruct (nth_some b g ltac:(lia)) as [c EC].
    destruct (change_ok (fun c : nat * nat => Ok (fst c + nref l, snd c + nerr l)) (fst c + nref l, snd c + nerr l) b g c EC eq_refl) as (b' & CB & LB & EB').
    destruct (change_ok (fun b => change b g (fun c : nat * nat => Ok (fst c + nref l, snd c + nerr l))) b' a k b EB CB) as (a' & CA & LA & EA').
    destruct (change_ok (fun a => change a k (fun b => change b g (fun c : nat * nat => Ok (fst c + nref l, snd c + nerr l)))) a' (lsc t) i a EA CA) as (s' & -> & LS & ES').
    cbn [rbind]. eexists. split; [reflexivity|]. split; [|split].
    + split; [cbn; lia|]. split; [cbn; lia|]. cbn [lsc]. apply forall_nth. intros j x E. rewrite ES' in E.
      destruct (Nat.eqb j i).
      * injection E as <-. split; [lia|]. apply forall_nth. intros j' y E. rewrite EA' in E. destruct (Nat.eqb j' k).
        -- injection E as <-. lia.
        -- rewrite Forall_forall in DB. apply DB. eapply nth_error_In; eauto.
      * rewrite Forall_forall in DF. apply DF. eapply nth_error_In; eauto.
    + intros k'. unfold loc. cbn [location]. rewrite EL. destruct (Nat.eqb k' k); reflexivity.
    + intros i' k' g'. unfold cell. cbn [lsc]. rewrite ES'. destruct (Nat.eqb_spec i' i) as [->|]; cbn [andb]; [|reflexivity].
      rewrite EA, EA'. destruct (Nat.eqb_spec k' k) as [->|]; cbn [andb]; [|reflexivity]. rewrite EB, EB'.
      destruct (Nat.eqb_spec g' g) as [->|]; [|reflexivity]. rewrite EC. cbn [option_map].
      destruct (words_ref l) as [-> ->]. reflexivity.
Qed.

(** ** runs *)
Definition good_mention (n K G : nat) (m : mention) : Prop :=
  let '(i, o, q, g, l) := m in i < n /\ g < G /\ forall k, o = Some k -> k < K.
Definition m_label (m : mention) : option nat := let '(i, o, q, g, l) := m in o.
Definition m_place (m : mention) : nat := let '(i, o, q, g, l) := m in q.
Definition fits (lc : nat -> option nat) (ms : list mention) : Prop :=
  (forall m, In m ms -> m_label m <> None)
  /\ (forall m k, In m ms -> m_label m = Some k -> lc k = None \/ lc k = Some (m_place m))
  /\ (forall m m' k, In m ms -> In m' ms -> m_label m = Some k -> m_label m' = Some k -> m_place m = m_place m').
Fixpoint sum (w : eval -> bool) (i k g : nat) (ms : list mention) : nat :=
  match ms with
  | [] => 0
  | (i', o, q, g', l) :: r =>
      (if Nat.eqb i' i && Nat.eqb g' g && match o with Some k' => Nat.eqb k' k | None => false end then length (filter w l) else 0) + sum w i k g r
  end.

Lemma run_spec n K G : forall ms t, dims t n K G -> Forall (good_mention n K G) ms ->
  (fits (loc t) ms /\ exists t', run ms t = Ok t' /\ dims t' n K G
     /\ forall i k g c, cell t i k g = Some c -> cell t' i k g = Some (fst c + sum is_ref i k g ms, snd c + sum is_err i k g ms))
  \/ (~ fits (loc t) ms /\ run ms t = Exit).
Proof.
  induction ms as [|m ms IH]; intros t D F.
  - left. split; [repeat split; intros ? *; intros []|]. exists t. split; [reflexivity|]. split; [exact D|]. intros i k g [a b] E. cbn [sum fst snd]. now rewrite !Nat.add_0_r.
  - destruct m as [[[[i o] q] g] l]. inversion F as [|? ? GM F']; subst. destruct GM as (Hi & Hg & Hk). cbn [run].
    destruct o as [k|].
    2:{ right. split; [|reflexivity]. intros (A & _). apply (A _ (or_introl eq_refl)). reflexivity. }
    destruct (count_ok n K G t i g l q k D Hi Hg (Hk k eq_refl)) as [(L1 & L2 & ->)|(L & t1 & -> & D1 & LOC & CELL)]; cbn [rbind].
    { right. split; [|reflexivity]. intros (_ & A & _). destruct (A _ k (or_introl eq_refl) eq_refl); contradiction. }
    assert (EQ : fits (loc t) ((i, Some k, q, g, l) :: ms) <-> fits (loc t1) ms).
    { split.
      - intros (A & B & C). split; [|split].
        + intros m I. apply A. right. exact I.
        + intros m k' I E. rewrite LOC. destruct (Nat.eqb_spec k' k) as [->|].
          * right. f_equal. exact (C (i, Some k, q, g, l) m k (or_introl eq_refl) (or_intror I) eq_refl E).
          * apply B; [right; exact I|exact E].
        + intros m m' k' I I'. apply C; right; assumption.
      - intros (A & B & C).
        assert (P : forall m k', In m ms -> m_label m = Some k' -> k' = k -> m_place m = q).
        { intros m k' I E ->. destruct (B m k I E) as [X|X]; rewrite LOC, Nat.eqb_refl in X; congruence. }
        split; [|split].
        + intros m [<-|I]; [discriminate|auto].
        + intros m k' [<-|I] E; [injection E as <-; exact L|].
          destruct (Nat.eq_dec k' k) as [->|NK].
          * rewrite (P m k I E eq_refl). exact L.
          * specialize (B m k' I E). rewrite LOC in B. destruct (Nat.eqb_spec k' k); [contradiction|exact B].
        + intros m m' k' [<-|I] [<-|I'] E E'; [reflexivity| | |eauto].
          * injection E as <-. symmetry. exact (P m' k I' E' eq_refl).
          * injection E' as <-. exact (P m k I E eq_refl). }
    destruct (IH t1 D1 F') as [(FT & t' & E & D' & CC)|(NF & E)].
    + left. split; [now apply EQ|]. exists t'. split; [exact E|]. split; [exact D'|].
      intros i' k' g' [a b] H. specialize (CELL i' k' g'). rewrite H in CELL. cbn [sum fst snd option_map] in *.
      rewrite (Nat.eqb_sym i i'), (Nat.eqb_sym g g'), (Nat.eqb_sym k k').
      destruct (Nat.eqb i' i), (Nat.eqb k' k), (Nat.eqb g' g); cbn [andb] in *; rewrite (CC _ _ _ _ CELL); cbn [fst snd]; f_equal; f_equal; lia.
    + right. split; [|exact E]. now rewrite EQ.
Qed.

(** ** the mentions of tests *)
Lemma field_mentions_in name i g l : forall fs q m, In m (field_mentions name i g l q fs) <->
  exists d f, nth_error fs d = Some f /\ f <> [] /\ m = (i, name f, q + d, g, l).
Proof.
  induction fs as [|f fs IH]; intros q m; cbn [field_mentions].
  - split; [intros []|]. intros (d & f & E & _). destruct d; discriminate.
  - rewrite in_app_iff, IH. split.
    + intros [I|(d & f' & E & NE & ->)].
      * destruct f as [|c f]; [destruct I|]. destruct I as [<-|[]]. exists 0, (c :: f). rewrite Nat.add_0_r. repeat split. discriminate.
      * exists (S d), f'. rewrite Nat.add_succ_r. repeat split; auto.
    + intros (d & f' & E & NE & ->). destruct d as [|d]; cbn [nth_error] in E.
      * injection E as ->. left. rewrite Nat.add_0_r. destruct f' as [|c f']; [congruence|]. left. reflexivity.
      * right. exists d, f'. rewrite Nat.add_succ_r. repeat split; auto.
Qed.
Lemma utt_mentions_in name i g u m : In m (utt_mentions name i g u) <->
  exists fs q f, u_fields u = Some fs /\ nth_error fs q = Some f /\ f <> [] /\ m = (i, name f, q, g, u_evals u).
Proof.
  unfold utt_mentions. destruct (u_fields u) as [fs|].
  - rewrite field_mentions_in. split.
    + intros (d & f & E & NE & ->). exists fs, d, f. auto.
    + intros (fs' & q & f & E0 & E & NE & ->). injection E0 as <-. exists q, f. auto.
  - split; [intros []|]. intros (fs & q & f & E & _). discriminate.
Qed.
Lemma groups_mentions_in name i : forall gs g0 m, In m (groups_mentions name i g0 gs) <->
  exists d us u, nth_error gs d = Some us /\ In u us /\ In m (utt_mentions name i (g0 + d) u).
Proof.
  induction gs as [|us gs IH]; intros g0 m; cbn [groups_mentions].
  - split; [intros []|]. intros (d & us & u & E & _). destruct d; discriminate.
  - rewrite in_app_iff, IH. unfold group_mentions. rewrite in_flat_map. split.
    + intros [(u & I & J)|(d & us' & u & E & I & J)].
      * exists 0, us, u. rewrite Nat.add_0_r. auto.
      * exists (S d), us', u. rewrite Nat.add_succ_r. auto.
    + intros (d & us' & u & E & I & J). destruct d as [|d]; cbn [nth_error] in E.
      * injection E as ->. rewrite Nat.add_0_r in J. left. eauto.
      * right. exists d, us', u. rewrite Nat.add_succ_r in J. auto.
Qed.
Lemma tests_mentions_in : forall ts s m, In m (tests_mentions s ts) <->
  exists d t name, nth_error ts d = Some (t, name) /\ In m (groups_mentions name (s + d) 0 (k_grps t)).
Proof.
  induction ts as [|[t name] ts IH]; intros s m; cbn [tests_mentions].
  - split; [intros []|]. intros (d & t & name & E & _). destruct d; discriminate.
  - rewrite in_app_iff, IH. split.
    + intros [I|(d & t' & name' & E & I)].
      * exists 0, t, name. rewrite Nat.add_0_r. auto.
      * exists (S d), t', name'. rewrite Nat.add_succ_r. auto.
    + intros (d & t' & name' & E & I). destruct d as [|d]; cbn [nth_error] in E.
      * injection E as -> ->. rewrite Nat.add_0_r in I. auto.
      * right. exists d, t', name'. rewrite Nat.add_succ_r in I. auto.
Qed.
Lemma mention_iff ts o q : (exists m, In m (tests_mentions 0 ts) /\ m_label m = o /\ m_place m = q) <->
  exists t name u fs f, In (t, name) ts /\ uses t u /\ u_fields u = Some fs /\ nth_error fs q = Some f /\ f <> [] /\ name f = o.
Proof.
  split.
  - intros (m & I & EO & EQ). apply tests_mentions_in in I as (d & t & name & E & I). apply groups_mentions_in in I as (g & us & u & E2 & I2 & I).
    apply utt_mentions_in in I as (fs & q' & f & EF & EN & NE & ->). cbn [m_label m_place] in *. subst.
    exists t, name, u, fs, f. repeat split; auto; [eapply nth_error_In; eauto|]. exists us. split; [eapply nth_error_In; eauto|exact I2].
  - intros (t & name & u & fs & f & I & (us & I1 & I2) & EF & EN & NE & EO).
    apply In_nth_error in I as [d E]. apply In_nth_error in I1 as [g E1].
    exists (d, name f, q, g, u_evals u). split; [|auto]. apply tests_mentions_in. exists d, t, name. split; [exact E|].
    apply groups_mentions_in. exists g, us, u. split; [exact E1|]. split; [exact I2|]. apply utt_mentions_in. exists fs, q, f. auto.
Qed.
Lemma fits_iff ts : fits (fun _ => None) (tests_mentions 0 ts) <-> known ts /\ same_place ts.
Proof.
  split.
  - intros (A & _ & C). split.
    + intros t name u fs f I U EF IF NE EO. apply In_nth_error in IF as [q EN].
      destruct (proj2 (mention_iff ts None q)) as (m & IM & ML & _); [|exact (A m IM ML)].
      exists t, name, u, fs, f. auto 7.
    + intros t name u t' name' u' q q' k I U I' U' (fs & f & EF & EN & NE & EO) (fs' & f' & EF' & EN' & NE' & EO').
      destruct (proj2 (mention_iff ts (Some k) q)) as (m & IM & ML & MP); [exists t, name, u, fs, f; auto 7|].
      destruct (proj2 (mention_iff ts (Some k) q')) as (m' & IM' & ML' & MP'); [exists t', name', u', fs', f'; auto 7|].
      rewrite <- MP, <- MP'. eapply C; eauto.
  - intros (KN & SP). split; [|split].
    + intros m I E. destruct (proj1 (mention_iff ts None (m_place m))) as (t & name & u & fs & f & IT & U & EF & EN & NE & EO); [eauto|].
      eapply KN; eauto. eapply nth_error_In; eauto.
    + auto.
    + intros m m' k I I' E E'.
      destruct (proj1 (mention_iff ts (Some k) (m_place m))) as (t & name & u & fs & f & IT & U & EF & EN & NE & EO); [eauto|].
      destruct (proj1 (mention_iff ts (Some k) (m_place m'))) as (t' & name' & u' & fs' & f' & IT' & U' & EF' & EN' & NE' & EO'); [eauto|].
      apply (SP t name u t' name' u' (m_place m) (m_place m') k IT U IT' U'); [exists fs, f; auto|exists fs', f'; auto].
Qed.

(** ** sums *)
Lemma sum_app w i k g a b : sum w i k g (a ++ b) = sum w i k g a + sum w i k g b.
Proof. induction a as [|[[[[i' o] q] g'] l] a IH]; [reflexivity|]. cbn [app sum]. rewrite IH. lia. Qed.
Definition hasf (name : chars -> option nat) (k : nat) (f : chars) : bool :=
  match f with [] => false | _ => match name f with Some j => Nat.eqb j k | None => false end end.
Lemma sum_fields w name i g l k i' g' : forall fs q,
  (forall q1 q2 f1 f2, nth_error fs q1 = Some f1 -> nth_error fs q2 = Some f2 -> hasf name k f1 = true -> hasf name k f2 = true -> q1 = q2) ->
  sum w i k g (field_mentions name i' g' l q fs) =
    if Nat.eqb i' i && Nat.eqb g' g && existsb (hasf name k) fs then length (filter w l) else 0.
Proof.
  induction fs as [|f fs IH]; intros q U; cbn [field_mentions existsb].
  - cbn [sum]. now rewrite andb_false_r.
  - rewrite sum_app, IH.
    2:{ intros q1 q2 f1 f2 E1 E2 H1 H2. specialize (U (S q1) (S q2) f1 f2 E1 E2 H1 H2). lia. }
    assert (ONE : hasf name k f = true -> existsb (hasf name k) fs = false).
    { intros H. destruct (existsb (hasf name k) fs) eqn:E; [|reflexivity]. apply existsb_exists in E as (f' & I & H').
      apply In_nth_error in I as [d E']. specialize (U 0 (S d) f f' eq_refl E' H H'). discriminate. }
    match goal with |- sum w i k g ?x + _ = _ => assert (S1 : sum w i k g x = if Nat.eqb i' i && Nat.eqb g' g && hasf name k f then length (filter w l) else 0) end.
    { destruct f as [|c f]; cbn [sum hasf]; [now rewrite andb_false_r|]. apply Nat.add_0_r. }
    rewrite S1. destruct (Nat.eqb i' i), (Nat.eqb g' g); cbn [andb]; try reflexivity.
    destruct (hasf name k f); cbn [orb]; [rewrite (ONE eq_refl); lia|reflexivity].
Qed.
Definition unique (name : chars -> option nat) (u : utt) : Prop := forall q q' k, carries name q k u -> carries name q' k u -> q = q'.
Lemma sum_utt w name i g k i' g' u : unique name u ->
  sum w i k g (utt_mentions name i' g' u) = if Nat.eqb i' i && Nat.eqb g' g && has name k u then length (filter w (u_evals u)) else 0.
Proof.
  intros U. unfold utt_mentions, has. destruct (u_fields u) as [fs|] eqn:E; [|cbn [sum]; now rewrite andb_false_r].
  apply sum_fields. intros q1 q2 f1 f2 E1 E2 H1 H2. unfold hasf in *. destruct f1 as [|c1 f1]; [discriminate|]. destruct f2 as [|c2 f2]; [discriminate|].
  destruct (name (c1 :: f1)) as [k1|] eqn:N1; [|discriminate]. destruct (name (c2 :: f2)) as [k2|] eqn:N2; [|discriminate].
  apply Nat.eqb_eq in H1, H2. subst. apply (U q1 q2 k).
  - exists fs, (c1 :: f1). repeat split; auto. discriminate.
  - exists fs, (c2 :: f2). repeat split; auto. discriminate.
Qed.
Lemma sum_group w name i g k i' g' : forall us, Forall (unique name) us ->
  sum w i k g (group_mentions name i' g' us) = if Nat.eqb i' i && Nat.eqb g' g then total w name k us else 0.
Proof.
  induction 1 as [|u us U F IH]; cbn [group_mentions flat_map total]; [cbn [sum]; now destruct (_ && _)|].
  rewrite sum_app, (sum_utt w name i g k i' g' u U). unfold group_mentions in IH. rewrite IH.
  destruct (Nat.eqb i' i), (Nat.eqb g' g), (has name k u); cbn [andb]; lia.
Qed.
Lemma sum_groups w name i g k i' : forall gs g0, Forall (Forall (unique name)) gs ->
  sum w i k g (groups_mentions name i' g0 gs) =
    if Nat.eqb i' i && Nat.leb g0 g then match nth_error gs (g - g0) with Some us => total w name k us | None => 0 end else 0.
Proof.
  induction gs as [|us gs IH]; intros g0 F; cbn [groups_mentions].
  - cbn [sum]. destruct (g - g0); cbn [nth_error]; now destruct (_ && _).
  - inversion F; subst. rewrite sum_app, sum_group, IH by assumption. destruct (Nat.eqb i' i); cbn [andb]; [|reflexivity].
    destruct (Nat.eqb_spec g0 g) as [->|N].
    + rewrite Nat.leb_refl, Nat.sub_diag. destruct (Nat.leb_spec (S g) g); [lia|]. cbn [nth_error]. lia.
    + destruct (Nat.leb_spec g0 g), (Nat.leb_spec (S g0) g); try lia. replace (g - g0) with (S (g - S g0)) by lia. reflexivity.
Qed.
Lemma sum_tests w i g k : forall ts s, Forall (fun t => Forall (Forall (unique (snd t))) (k_grps (fst t))) ts ->
  sum w i k g (tests_mentions s ts) =
    if Nat.leb s i then match nth_error ts (i - s) with
                        | Some (t, name) => match nth_error (k_grps t) g with Some us => total w name k us | None => 0 end
                        | None => 0 end
    else 0.
Proof.
  induction ts as [|[t name] ts IH]; intros s F; cbn [tests_mentions].
  - cbn [sum]. destruct (i - s); cbn [nth_error]; now destruct (Nat.leb s i).
  - inversion F; subst. cbn [fst snd] in *. rewrite sum_app, sum_groups, IH by assumption.
    change (Nat.leb 0 g) with true. rewrite andb_true_r, Nat.sub_0_r. destruct (Nat.eqb_spec s i) as [->|N].
    + rewrite Nat.leb_refl, Nat.sub_diag. destruct (Nat.leb_spec (S i) i); [lia|]. cbn [nth_error]. lia.
    + destruct (Nat.leb_spec s i), (Nat.leb_spec (S s) i); try lia. replace (i - s) with (S (i - S s)) by lia. reflexivity.
Qed.
