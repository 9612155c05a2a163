From Coq Require Import List NArith ZArith Arith Bool Lia.
From Verif Require Import Base Rfilter_Model Rfilter_Spec.
Import ListNotations.
Local Open Scope res_scope.

(** * Comparison of characters *)
Lemma same_alike cs a b : same cs a b = true <-> alike cs a b.
Proof.
  unfold same, alike, letter_pair, lower. destruct cs.
  - rewrite N.eqb_eq. split; [now left|]. intros [H|[H _]]; congruence.
  - rewrite N.eqb_eq. split.
    + destruct (65 <=? a)%N eqn:A1; destruct (a <=? 90)%N eqn:A2; destruct (65 <=? b)%N eqn:B1; destruct (b <=? 90)%N eqn:B2;
        cbn [andb]; rewrite ?N.leb_le, ?N.leb_gt in *; intros H;
        first [left; lia | right; split; [reflexivity|];
                 first [left; exists (a - 65)%N; lia | right; exists (b - 65)%N; lia]].
    + intros [H|[_ [[i [H1 [H2 H3]]]|[i [H1 [H2 H3]]]]]]; subst; [reflexivity| |];
        (replace (65 <=? 65 + i)%N with true by (symmetry; apply N.leb_le; lia);
         replace (65 + i <=? 90)%N with true by (symmetry; apply N.leb_le; lia);
         replace (97 + i <=? 90)%N with false by (symmetry; apply N.leb_gt; lia);
         rewrite Bool.andb_false_r; cbn [andb]; lia).
Qed.
Lemma alike_upper a b : alike false a b -> upper a = upper b.
Proof.
  intros [H|[_ [[i [H1 [H2 H3]]]|[i [H1 [H2 H3]]]]]]; subst; [reflexivity| |]; unfold upper;
        (replace (97 <=? 65 + i)%N with false by (symmetry; apply N.leb_gt; lia);
         replace (97 <=? 97 + i)%N with true by (symmetry; apply N.leb_le; lia);
         replace (97 + i <=? 122)%N with true by (symmetry; apply N.leb_le; lia);
         cbn [andb]; lia).
Qed.
Lemma starts_iff cs q : forall p, starts cs p q = true <-> exists m rest, p = m ++ rest /\ Forall2 (alike cs) m q.
Proof.
  induction q as [|b q IH]; intros p.
  - split; [|now destruct p]. intros _. exists [], p. split; [reflexivity|constructor].
  - destruct p as [|a p]; cbn [starts].
    + split; [discriminate|]. intros [m [rest [H F]]]. inversion F; subst. discriminate.
    + rewrite andb_true_iff, same_alike, IH. split.
      * intros [A [m [rest [H F]]]]. subst. exists (a :: m), rest. split; [reflexivity|now constructor].
      * intros [m [rest [H F]]]. inversion F as [|x y m' q' A F']; subst. cbn in H. injection H as -> ->.
        split; [exact A|]. exists m', rest. now split.
Qed.
Lemma F2_len {A B} (R : A -> B -> Prop) a b : Forall2 R a b -> length a = length b.
Proof. induction 1; cbn; lia. Qed.
Lemma app_inj_len {A} (a b c d : list A) : length a = length c -> a ++ b = c ++ d -> a = c /\ b = d.
Proof.
  revert c; induction a as [|x a IH]; intros [|y c] L E; cbn in *; try discriminate; [now split|].
  injection E as -> E. destruct (IH c) as [-> ->]; [lia|exact E|now split].
Qed.
Lemma starts_suffix cs left q :
  length q <= length left ->
  (starts cs (skipn (length left - length q) left) q = true <-> exists l0 lm, left = l0 ++ lm /\ Forall2 (alike cs) lm q).
Proof.
  intros L. rewrite starts_iff. split.
  - intros [m [rest [E F]]]. pose proof (F2_len _ _ _ F) as FL.
    assert (length (skipn (length left - length q) left) = length q) as SL by (rewrite skipn_length; lia).
    rewrite E, app_length in SL. assert (rest = []) as -> by (destruct rest; [reflexivity|cbn in SL; lia]).
    rewrite app_nil_r in E. exists (firstn (length left - length q) left), m. split; [|exact F].
    rewrite <- E. symmetry. apply firstn_skipn.
  - intros [l0 [lm [E F]]]. pose proof (F2_len _ _ _ F) as FL. exists lm, []. rewrite app_nil_r. split; [|exact F].
    subst left. rewrite app_length. replace (length l0 + length lm - length q) with (length l0) by lia.
    rewrite skipn_app, skipn_all, Nat.sub_diag. reflexivity.
Qed.

(** * The index *)
Fixpoint positions (cs : bool) (rs : list rule) (i : nat) (k : N) : list nat :=
  match rs with
  | [] => []
  | r :: rest => (if (key cs r =? k)%N then [i] else []) ++ positions cs rest (S i) k
  end.
Lemma positions_in cs rs : forall i k j, In j (positions cs rs i k) ->
  i <= j /\ exists r, nth_error rs (j - i) = Some r /\ key cs r = k.
Proof.
  induction rs as [|r rs IH]; intros i k j H; [destruct H|]. cbn [positions] in H. apply in_app_or in H.
  destruct H as [H|H].
  - destruct (key cs r =? k)%N eqn:E; [|destruct H]. destruct H as [<-|[]]. apply N.eqb_eq in E.
    split; [lia|]. exists r. rewrite Nat.sub_diag. now split.
  - apply IH in H. destruct H as [H [q [Q K]]]. split; [lia|]. exists q.
    replace (j - i) with (S (j - S i)) by lia. now split.
Qed.
Lemma positions_nth cs rs : forall i j r, nth_error rs j = Some r -> In (i + j) (positions cs rs i (key cs r)).
Proof.
  induction rs as [|q rs IH]; intros i [|j] r H; cbn in H; try discriminate; cbn [positions]; apply in_or_app.
  - injection H as ->. rewrite N.eqb_refl. left. left. lia.
  - right. replace (i + S j) with (S i + j) by lia. now apply IH.
Qed.
Lemma positions_app cs a b : forall i k, positions cs (a ++ b) i k = positions cs a i k ++ positions cs b (i + length a) k.
Proof.
  induction a as [|r a IH]; intros i k; cbn [app positions length]; [now rewrite Nat.add_0_r|].
  rewrite IH, <- app_assoc. now replace (S i + length a) with (i + S (length a)) by lia.
Qed.

Lemma later_ok cs k rest : forall i2 t a blk,
  ix t = a ++ blk -> last_rule t k = Z.of_nat (length a + length blk) ->
  (forall j r, nth_error rest j = Some r -> key cs r = k -> indexed t (i2 + j) = false) ->
  let t' := index_later cs k rest i2 t in
  ix t' = a ++ blk ++ positions cs rest i2 k /\
  first_rule t' = first_rule t /\
  last_rule t' k = Z.of_nat (length a + length (blk ++ positions cs rest i2 k)) /\
  (forall x, x <> k -> last_rule t' x = last_rule t x) /\
  nrules t k <= nrules t' k /\ (forall x, x <> k -> nrules t' x = nrules t x) /\
  (forall j, indexed t' j = true -> indexed t j = true \/ In j (positions cs rest i2 k)).
Proof.
  induction rest as [|r rest IH]; intros i2 t a blk I L F; cbn [index_later positions].
  - rewrite app_nil_r. repeat split; auto; lia.
  - destruct (key cs r =? k)%N eqn:E.
    + apply N.eqb_eq in E. pose proof (F 0 r eq_refl E) as F0. rewrite Nat.add_0_r in F0. rewrite F0. cbn [negb andb].
      specialize (IH (S i2) {| ix := ix t ++ [i2]; first_rule := first_rule t;
            last_rule := upd (last_rule t) k (Z.of_nat (S (length (ix t))));
            nrules := upd (nrules t) k (S (nrules t k)); indexed := mark (indexed t) i2 |} a (blk ++ [i2])).
      cbn [ix last_rule nrules indexed first_rule] in IH. destruct IH as [I1 [I2 [I3 [I4 [I5 [I6 I7]]]]]].
      * now rewrite I, app_assoc.
      * unfold upd. rewrite N.eqb_refl, I, !app_length. cbn. f_equal. lia.
      * intros j q Q K. unfold mark. rewrite (proj2 (Nat.eqb_neq _ _)) by lia. cbn [orb].
        replace (S i2 + j) with (i2 + S j) by lia. now apply (F (S j) q).
      * rewrite <- app_assoc in I1, I3. cbn [app] in *. split; [exact I1|]. split; [exact I2|]. split; [exact I3|].
        split; [|split; [|split]].
        -- intros x X. rewrite I4 by exact X. unfold upd. now rewrite (proj2 (N.eqb_neq _ _) X).
        -- revert I5. unfold upd. rewrite N.eqb_refl. lia.
        -- intros x X. rewrite I6 by exact X. unfold upd. now rewrite (proj2 (N.eqb_neq _ _) X).
        -- intros j J. apply I7 in J. destruct J as [J|J]; [|right; now right].
           unfold mark in J. apply orb_true_iff in J. destruct J as [J|J]; [|now left].
           apply Nat.eqb_eq in J. right. now left.
    + rewrite andb_false_r. cbn [app]. apply IH; [exact I|exact L|].
      intros j q Q K. replace (S i2 + j) with (i2 + S j) by lia. now apply (F (S j) q).
Qed.

Record inv (cs : bool) (full done : list rule) (t : tables) : Prop := {
  iv_none : forall k, nrules t k = 0 -> first_rule t k = 0%Z /\ last_rule t k = (-1)%Z /\ (forall r, In r done -> key cs r <> k);
  iv_some : forall k, nrules t k <> 0 -> exists a b, ix t = a ++ positions cs full 1 k ++ b /\
              first_rule t k = Z.of_nat (S (length a)) /\ last_rule t k = Z.of_nat (length a + length (positions cs full 1 k));
  iv_idx : forall j r, 1 <= j -> nth_error full (j - 1) = Some r -> indexed t j = true -> nrules t (key cs r) <> 0 }.

Lemma index_ok cs full rest : forall done t, full = done ++ rest -> inv cs full done t ->
  inv cs full full (index_rules cs rest (S (length done)) t).
Proof.
  induction rest as [|r rest IH]; intros done t E V; cbn [index_rules].
  - rewrite app_nil_r in E. now subst.
  - cbv zeta. set (k := key cs r).
    assert (full = (done ++ [r]) ++ rest) as E' by (now rewrite <- app_assoc).
    specialize (IH (done ++ [r])). rewrite app_length in IH. cbn [length] in IH. rewrite Nat.add_1_r in IH.
    apply IH; [exact E'|].
    destruct (nrules t k =? 0)%nat eqn:NR.
    + apply Nat.eqb_eq in NR. destruct (iv_none _ _ _ _ V k NR) as [F0 [L0 D0]].
      set (t1 := {| ix := _; first_rule := _; last_rule := _; nrules := _; indexed := _ |}).
      assert (forall j q, nth_error rest j = Some q -> key cs q = k -> indexed t1 (S (S (length done)) + j) = false) as FI.
      { intros j q Q K. subst t1. cbn [indexed]. unfold mark. rewrite (proj2 (Nat.eqb_neq _ _)) by lia. cbn [orb].
        destruct (indexed t (S (S (length done)) + j)) eqn:X; [|reflexivity]. exfalso.
        apply (iv_idx _ _ _ _ V) with (r := q) in X; [|lia|].
        - rewrite K in X. contradiction.
        - rewrite E'. rewrite nth_error_app2; rewrite app_length; cbn [length]; [|lia].
          replace (S (S (length done)) + j - 1 - (length done + 1)) with j by lia. exact Q. }
      destruct (later_ok cs k rest (S (S (length done))) t1 (ix t) [S (length done)]) as [I1 [I2 [I3 [I4 [I5 [I6 I7]]]]]].
      { reflexivity. }
      { subst t1. cbn [last_rule]. unfold upd. rewrite N.eqb_refl. cbn [length]. f_equal. lia. }
      { exact FI. }
      assert (nrules t1 k = S (nrules t k)) as N1 by (subst t1; cbn [nrules]; unfold upd; now rewrite N.eqb_refl).
      assert (forall x, x <> k -> nrules t1 x = nrules t x /\ first_rule t1 x = first_rule t x /\ last_rule t1 x = last_rule t x) as O1
        by (intros x X; subst t1; cbn [nrules first_rule last_rule]; unfold upd; now rewrite (proj2 (N.eqb_neq _ _) X)).
      assert (first_rule t1 k = Z.of_nat (S (length (ix t)))) as F1 by (subst t1; cbn [first_rule]; unfold upd; now rewrite N.eqb_refl).
      assert (forall j, indexed t1 j = true -> j = S (length done) \/ indexed t j = true) as X1.
      { intros j J. subst t1. cbn [indexed] in J. unfold mark in J. apply orb_true_iff in J. destruct J as [J|J]; [left; now apply Nat.eqb_eq|now right]. }
      clearbody t1.
      assert (positions cs full 1 k = [S (length done)] ++ positions cs rest (S (S (length done))) k) as P.
      { rewrite E, positions_app. replace (positions cs done 1 k) with (@nil nat).
        - cbn [app positions]. fold k. rewrite N.eqb_refl. cbn. reflexivity.
        - symmetry. destruct (positions cs done 1 k) as [|j l] eqn:PP; [reflexivity|]. exfalso.
          assert (In j (positions cs done 1 k)) as J by (rewrite PP; now left).
          apply positions_in in J. destruct J as [_ [q [Q K]]]. apply nth_error_In in Q. exact (D0 q Q K). }
      constructor.
      * intros x X. destruct (N.eq_dec x k) as [->|NE]; [lia|].
        destruct (O1 x NE) as [O2 [O3 O4]]. rewrite I6, O2 in X by exact NE.
        destruct (iv_none _ _ _ _ V x X) as [A [B C]]. rewrite I2, I4, O3, O4 by exact NE.
        split; [exact A|]. split; [exact B|].
        intros q Q. apply in_app_or in Q. destruct Q as [Q|[<-|[]]]; [now apply C|]. fold k. congruence.
      * intros x X. destruct (N.eq_dec x k) as [->|NE].
        -- exists (ix t), []. rewrite app_nil_r, P. split; [exact I1|]. rewrite I2, I3. now split.
        -- destruct (O1 x NE) as [O2 [O3 O4]]. rewrite I6, O2 in X by exact NE.
           destruct (iv_some _ _ _ _ V x X) as [a [b [A [B C]]]].
           exists a, (b ++ [S (length done)] ++ positions cs rest (S (S (length done))) k).
           rewrite I1, A, I2, I4, O3, O4 by exact NE. split; [now rewrite <- !app_assoc|]. now split.
      * intros j q J Q X. apply I7 in X. destruct (N.eq_dec (key cs q) k) as [->|NE]; [lia|].
        rewrite I6, (proj1 (O1 _ NE)) by exact NE.
        destruct X as [X|X].
        -- destruct (X1 _ X) as [Y|Y].
           ++ subst j. exfalso. apply NE. rewrite E in Q. rewrite nth_error_app2 in Q by lia.
              replace (S (length done) - 1 - length done) with 0 in Q by lia. cbn in Q. injection Q as <-. reflexivity.
           ++ now apply (iv_idx _ _ _ _ V) with (j := j).
        -- exfalso. apply NE. assert (In j (positions cs full 1 k)) as PJ by (rewrite P; now right).
           apply positions_in in PJ. destruct PJ as [_ [q' [Q' K]]]. congruence.
    + apply Nat.eqb_neq in NR. constructor; [|exact (iv_some _ _ _ _ V)|exact (iv_idx _ _ _ _ V)].
      intros x X. destruct (iv_none _ _ _ _ V x X) as [A [B C]]. split; [exact A|]. split; [exact B|].
      intros q Q. apply in_app_or in Q. destruct Q as [Q|[<-|[]]]; [now apply C|]. fold k. congruence.
Qed.
Lemma index_all cs rs : inv cs rs rs (index_rules cs rs 1 tables0).
Proof.
  apply (index_ok cs rs rs []); [reflexivity|]. constructor; cbn.
  - intros k _. split; [reflexivity|]. split; [reflexivity|]. intros r [].
  - intros k H. now destruct H.
  - discriminate.
Qed.

(** What the loop over first_rule .. last_rule visits. *)
Lemma visited cs copy rs k :
  let s := make_ruleset rs cs copy in
  let f := first_rule (tabs s) k in let n := Z.to_nat (last_rule (tabs s) k - f + 1) in
  n = length (positions cs rs 1 k) /\
  (forall j, j < n -> (1 <= f)%Z /\ nth_error (ix (tabs s)) (Z.to_nat (f + Z.of_nat j) - 1) = nth_error (positions cs rs 1 k) j).
Proof.
  cbv zeta. cbn [tabs make_ruleset]. pose proof (index_all cs rs) as V. set (t := index_rules cs rs 1 tables0) in *.
  destruct (Nat.eq_dec (nrules t k) 0) as [Z0|NZ].
  - destruct (iv_none _ _ _ _ V k Z0) as [A [B C]]. rewrite A, B. cbn.
    assert (positions cs rs 1 k = []) as ->.
    { destruct (positions cs rs 1 k) as [|j l] eqn:PP; [reflexivity|]. exfalso.
      assert (In j (positions cs rs 1 k)) as J by (rewrite PP; now left).
      apply positions_in in J. destruct J as [_ [q [Q K]]]. apply nth_error_In in Q. exact (C q Q K). }
    split; [reflexivity|]. intros j J. lia.
  - destruct (iv_some _ _ _ _ V k NZ) as [a [b [A [B C]]]]. rewrite B, C.
    assert (Z.to_nat (Z.of_nat (length a + length (positions cs rs 1 k)) - Z.of_nat (S (length a)) + 1) = length (positions cs rs 1 k)) as -> by lia.
    split; [reflexivity|]. intros j J. split; [lia|]. rewrite A.
    replace (Z.to_nat (Z.of_nat (S (length a)) + Z.of_nat j) - 1) with (length a + j) by lia.
    rewrite nth_error_app2 by lia. replace (length a + j - length a) with j by lia. now apply nth_error_app1.
Qed.

(** * Trying the rules at a position *)
Definition no_rule cs (qs : list rule) left right := forall q m rest, In q qs -> ~ applies cs q left right m rest.
Definition room_at cs (rs : list rule) (left right : text) : Prop :=
  forall r, In r rs -> sin r <> [] -> starts cs right (sin r) = true -> length (lctx r) <= length left.

Lemma fires_ok cs r left right :
  sin r <> [] -> (starts cs right (sin r) = true -> length (lctx r) <= length left) ->
  exists b, fires cs r left right = Ok b /\
    (b = true -> applies cs r left right (firstn (length (sin r)) right) (skipn (length (sin r)) right)) /\
    (b = false -> forall m rest, ~ applies cs r left right m rest).
Proof.
  intros NE RM. unfold fires. destruct (starts cs right (sin r)) eqn:S1.
  - specialize (RM eq_refl). rewrite (proj2 (Nat.ltb_ge _ _) RM).
    apply starts_iff in S1. destruct S1 as [m [rest [E F]]]. pose proof (F2_len _ _ _ F) as FL.
    assert (firstn (length (sin r)) right = m /\ skipn (length (sin r)) right = rest) as [FI SK].
    { subst right. rewrite <- FL, firstn_app, firstn_all, skipn_app, skipn_all, Nat.sub_diag. cbn. rewrite app_nil_r. now split. }
    assert (forall m' rest', applies cs r left right m' rest' -> m' = m /\ rest' = rest) as U.
    { intros m' rest' [E' [_ [F' _]]]. apply F2_len in F'. apply app_inj_len; [lia|congruence]. }
    destruct (starts cs (skipn (length left - length (lctx r)) left) (lctx r)) eqn:S2.
    + pose proof (proj1 (starts_suffix cs left (lctx r) RM) S2) as LC.
      eexists. split; [reflexivity|]. rewrite SK, FI. split.
      * intros S3. apply starts_iff in S3. split; [exact E|]. split; [intros ->; destruct (sin r); [congruence|discriminate FL]|].
        split; [exact F|]. split; [exact LC|]. exact S3.
      * intros S3 m' rest' H. destruct (U _ _ H) as [-> ->]. destruct H as [_ [_ [_ [_ H]]]]. apply starts_iff in H. congruence.
    + eexists. split; [reflexivity|]. split; [discriminate|]. intros _ m' rest' [_ [_ [_ [H _]]]].
      apply (starts_suffix cs left (lctx r) RM) in H. congruence.
  - eexists. split; [reflexivity|]. split; [discriminate|]. intros _ m' rest' [H [_ [F _]]].
    assert (starts cs right (sin r) = true) by (apply starts_iff; eauto). congruence.
Qed.
Lemma fires_out cs r left right b : fires cs r left right = Ok b -> starts cs right (sin r) = true -> length (lctx r) <= length left.
Proof.
  unfold fires. intros H S1. rewrite S1 in H. destruct (length left <? length (lctx r))%nat eqn:L; [discriminate|].
  now apply Nat.ltb_ge in L.
Qed.

Lemma applies_key cs r left c rest m rest' : applies cs r left (c :: rest) m rest' ->
  key cs r = if cs then c else upper c.
Proof.
  intros [E [NE [F _]]]. unfold key. destruct m as [|x m]; [congruence|]. cbn in E. injection E as <- ->.
  inversion F as [|? y ? q A F' H1 H2]; subst. destruct cs.
  - destruct A as [A|[A _]]; congruence.
  - symmetry. now apply alike_upper.
Qed.

Lemma skipn_nth {A} (l : list A) j x : nth_error l j = Some x -> skipn j l = x :: skipn (S j) l.
Proof. revert j; induction l as [|y l IH]; intros [|j] H; cbn in *; try discriminate; [now injection H as ->|now apply IH]. Qed.
Lemma nth_positions_split cs rs k : forall i j x, nth_error (positions cs rs i k) j = Some x ->
  exists pre r post, rs = pre ++ r :: post /\ x = i + length pre /\ key cs r = k /\ positions cs pre i k = firstn j (positions cs rs i k).
Proof.
  induction rs as [|r rs IH]; intros i j x H; [destruct j; discriminate|]. cbn [positions] in *.
  destruct (key cs r =? k)%N eqn:E; cbn [app] in *.
  - destruct j as [|j]; cbn in H.
    + injection H as <-. exists [], r, rs. apply N.eqb_eq in E. split; [reflexivity|]. split; [cbn; lia|]. now split.
    + destruct (IH (S i) j x H) as [pre [q [post [A [B [C D]]]]]]. exists (r :: pre), q, post. subst.
      split; [reflexivity|]. split; [cbn; lia|]. split; [reflexivity|]. cbn [positions firstn]. rewrite E. cbn [app]. now rewrite D.
  - destruct (IH (S i) j x H) as [pre [q [post [A [B [C D]]]]]]. exists (r :: pre), q, post. subst.
    split; [reflexivity|]. split; [cbn; lia|]. split; [reflexivity|]. cbn [positions firstn]. rewrite E. cbn [app]. now rewrite D.
Qed.

Lemma try_ok cs copy rs left c rest k :
  let s := make_ruleset rs cs copy in
  let right := c :: rest in
  c <> 0%N ->
  k = (if cs then c else upper c) ->
  room_at cs rs left right ->
  forall n j, j + n = length (positions cs rs 1 k) ->
  (forall x, In x (firstn j (positions cs rs 1 k)) -> forall r, nth_error rs (x - 1) = Some r -> forall m r', ~ applies cs r left right m r') ->
  exists h, try_rules s n (first_rule (tabs s) k + Z.of_nat j) left right = Ok h /\
    match h with
    | None => no_rule cs rs left right
    | Some i => exists pre r post, rs = pre ++ r :: post /\ i = S (length pre) /\ no_rule cs pre left right /\
        applies cs r left right (firstn (length (sin r)) right) (skipn (length (sin r)) right)
    end.
Proof.
  cbv zeta. intros C0 K RM. set (s := make_ruleset rs cs copy). set (right := c :: rest).
  destruct (visited cs copy rs k) as [VN VX]. fold s in VN, VX.
  assert (NK : k <> 0%N).
  { rewrite K. destruct cs; [exact C0|]. unfold upper. destruct ((97 <=? c) && (c <=? 122))%N eqn:X; [|exact C0].
    apply andb_true_iff in X. rewrite !N.leb_le in X. lia. }
  induction n as [|n IH]; intros j JN P; cbn [try_rules].
  - exists None. split; [reflexivity|]. intros q m r' Q H.
    pose proof (applies_key _ _ _ _ _ _ _ H) as KQ. rewrite <- K in KQ.
    apply In_nth_error in Q. destruct Q as [x Q]. rewrite Nat.add_0_r in JN.
    apply (P (1 + x)) with (r := q) (m := m) (r' := r'); [| |exact H].
    + rewrite JN, firstn_all, <- KQ. now apply positions_nth.
    + now replace (1 + x - 1) with x by lia.
  - destruct (VX j) as [F1 NX]; [rewrite VN; lia|].
    rewrite (proj2 (Z.ltb_ge _ _)) by lia. rewrite NX.
    destruct (nth_error (positions cs rs 1 k) j) as [i|] eqn:PJ; [|apply nth_error_None in PJ; lia].
    destruct (nth_positions_split cs rs k 1 j i PJ) as [pre [r [post [A [B [D E]]]]]].
    assert (nth_error (rules s) (i - 1) = Some r) as NR.
    { subst s. cbn [rules make_ruleset]. rewrite A. rewrite nth_error_app2 by lia.
      replace (i - 1 - length pre) with 0 by lia. reflexivity. }
    rewrite NR.
    assert (In r rs) as IR by (rewrite A; apply in_or_app; right; now left).
    assert (sin r <> []) as SN.
    { intros Z0. unfold key in D. rewrite Z0 in D. apply NK. rewrite <- D. destruct cs; reflexivity. }
    change (case_sensitive s) with cs.
    destruct (fires_ok cs r left right SN (RM r IR SN)) as [b [FB [B1 B2]]]. rewrite FB. cbn [rbind].
    destruct b.
    + exists (Some i). split; [reflexivity|]. exists pre, r, post. split; [exact A|]. split; [lia|]. split; [|now apply B1].
      intros q m r' Q H. pose proof (applies_key _ _ _ _ _ _ _ H) as KQ. rewrite <- K in KQ.
      apply In_nth_error in Q. destruct Q as [x Q].
      apply (P (1 + x)) with (r := q) (m := m) (r' := r'); [| |exact H].
      * rewrite <- E, <- KQ. now apply positions_nth.
      * replace (1 + x - 1) with x by lia. rewrite A. rewrite nth_error_app1; [exact Q|]. apply nth_error_Some. congruence.
    + replace (first_rule (tabs s) k + Z.of_nat j + 1)%Z with (first_rule (tabs s) k + Z.of_nat (S j))%Z by lia.
      apply IH; [lia|]. intros x X q Q.
      assert (firstn (S j) (positions cs rs 1 k) = firstn j (positions cs rs 1 k) ++ [i]) as FS.
      { rewrite <- (firstn_skipn j (positions cs rs 1 k)) at 1. rewrite (skipn_nth _ _ _ PJ).
        rewrite firstn_app, firstn_firstn. assert (length (firstn j (positions cs rs 1 k)) = j) as LJ by (rewrite firstn_length; lia).
        rewrite LJ, Nat.min_r by lia. replace (S j - j) with 1 by lia. reflexivity. }
      rewrite FS in X. apply in_app_or in X. destruct X as [X|[<-|[]]]; [now apply (P x)|].
      assert (q = r) by (subst s; cbn [rules make_ruleset] in NR; congruence). subst q. now apply B2.
Qed.

(** * The whole line *)
Lemma rewrites_unique cs copy rs left right out used : rewrites cs copy rs left right out used ->
  forall out' used', rewrites cs copy rs left right out' used' -> out = out' /\ used = used'.
Proof.
  induction 1 as [left|left right m rest r pre post out used E A N R IH|left c rest out used N R IH]; intros out' used' H.
  - inversion H as [|? ? m rest r pre post o u E A|]; subst; [now split|]. destruct A as [A [NE _]].
    destruct m; [congruence|discriminate].
  - inversion H as [l0|? ? m' rest' r' pre' post' o u E' A' N' R'|? c' rest' o u N' R']; subst.
    + destruct A as [A [NE _]]. destruct m; [congruence|discriminate].
    + assert (pre' = pre /\ r' = r) as [-> ->].
      { clear - E' A A' N N'. revert pre' E' N'. induction pre as [|q pre IHp]; intros [|q' pre'] E' N'; cbn in E'.
        - injection E' as -> _. now split.
        - injection E' as -> _. exfalso. apply (N' q' m rest); [now left|exact A].
        - injection E' as -> _. exfalso. apply (N r' m' rest'); [now left|exact A'].
        - injection E' as -> E'. destruct (IHp (fun q m r H => N q m r (or_intror H)) pre' E' (fun q m r H => N' q m r (or_intror H))) as [-> ->]. now split. }
      assert (m' = m /\ rest' = rest) as [-> ->].
      { destruct A as [EA [_ [FA _]]], A' as [EA' [_ [FA' _]]]. apply F2_len in FA, FA'. apply app_inj_len; [lia|congruence]. }
      destruct (IH _ _ R') as [-> ->]. now split.
    + exfalso. apply (N' r m rest); [apply in_or_app; right; now left|exact A].
  - inversion H as [l0|? ? m' rest' r' pre' post' o u E' A' N' R'|? c' rest' o u N' R']; subst.
    + exfalso. apply (N r' m' rest'); [apply in_or_app; right; now left|exact A'].
    + destruct (IH _ _ R') as [-> ->]. now split.
Qed.

Lemma apply_ok cs copy rs cap : forall fuel left right acc hits,
  length right < fuel -> Forall (fun c => c <> 0%N) right -> roomy cs rs (left ++ right) -> length acc < cap ->
  exists out used, rewrites cs copy rs left right out used /\
    apply_loop fuel cap (make_ruleset rs cs copy) left right acc hits =
      (if (cap <=? length (acc ++ out))%nat then Undef else Ok (acc ++ out, hits ++ used)).
Proof.
  induction fuel as [|fuel IH]; intros left right acc hits FU NZ RM AC; [lia|]. cbn [apply_loop].
  destruct right as [|c rest].
  - exists [], []. split; [constructor|]. rewrite !app_nil_r. now rewrite (proj2 (Nat.leb_gt _ _) AC).
  - cbv zeta. change (case_sensitive (make_ruleset rs cs copy)) with cs. set (k := if cs then c else upper c).
    inversion NZ as [|? ? C0 NZ']; subst.
    assert (room_at cs rs left (c :: rest)) as RA.
    { intros r IR SN S1. apply starts_iff in S1. destruct S1 as [m [r' [E F]]]. apply (RM r left m r' IR); [now rewrite E| |exact F].
      intros ->. inversion F; congruence. }
    destruct (visited cs copy rs k) as [VN _].
    destruct (try_ok cs copy rs left c rest k C0 eq_refl RA (length (positions cs rs 1 k)) 0 eq_refl) as [h [T H]].
    { intros x []. }
    cbv zeta in VN. rewrite VN. rewrite Z.add_0_r in T. rewrite T. cbn [rbind]. destruct h as [i|].
    + destruct H as [pre [r [post [A [B [NN AP]]]]]].
      assert (nth_error (rules (make_ruleset rs cs copy)) (i - 1) = Some r) as NR.
      { cbn [rules make_ruleset]. rewrite A. rewrite nth_error_app2 by lia. now replace (i - 1 - length pre) with 0 by lia. }
      rewrite NR. set (right := c :: rest) in *. set (m := firstn (length (sin r)) right) in *.
      set (rs' := skipn (length (sin r)) right) in *.
      assert (right = m ++ rs') as ER by (symmetry; apply firstn_skipn).
      assert (m <> []) as MN by (apply AP).
      destruct (cap <=? length (acc ++ sout r))%nat eqn:CP.
      * assert (exists out used, rewrites cs copy rs (left ++ m) rs' out used) as [out [used R]].
        { destruct (IH (left ++ m) rs' acc hits) as [out [used [R _]]]; [| | |exact AC|exists out, used; exact R].
          - subst right. apply (f_equal (@length N)) in ER. rewrite app_length in ER. destruct m; [congruence|]. cbn in ER, FU. lia.
          - rewrite ER in NZ. apply Forall_app in NZ. tauto.
          - rewrite <- app_assoc, <- ER. exact RM. }
        exists (sout r ++ out), (S (length pre) :: used). split; [exact (R_rule _ _ _ _ _ _ _ _ _ _ _ _ A AP NN R)|].
        rewrite (proj2 (Nat.leb_le cap (length (acc ++ sout r ++ out)))); [reflexivity|].
        apply Nat.leb_le in CP. rewrite !app_length in *. lia.
      * apply Nat.leb_gt in CP. destruct (IH (left ++ m) rs' (acc ++ sout r) (hits ++ [i])) as [out [used [R EQ]]].
        -- subst right. apply (f_equal (@length N)) in ER. rewrite app_length in ER. destruct m; [congruence|]. cbn in ER, FU. lia.
        -- rewrite ER in NZ. apply Forall_app in NZ. tauto.
        -- rewrite <- app_assoc, <- ER. exact RM.
        -- exact CP.
        -- exists (sout r ++ out), (S (length pre) :: used). split; [exact (R_rule _ _ _ _ _ _ _ _ _ _ _ _ A AP NN R)|].
           rewrite EQ, <- !app_assoc. subst i. reflexivity.
    + cbn [copy_no_hit make_ruleset].
      assert (RM' : roomy cs rs ((left ++ [c]) ++ rest)) by (rewrite <- app_assoc; exact RM).
      assert (FU' : length rest < fuel) by (cbn in FU; lia).
      set (acc' := if copy then acc ++ [c] else acc).
      assert (forall o : text, acc' ++ o = acc ++ (if copy then c :: o else o)) as AO
        by (intros o; subst acc'; destruct copy; [now rewrite <- app_assoc|reflexivity]).
      destruct (cap <=? length acc')%nat eqn:CP.
      * destruct (IH (left ++ [c]) rest acc hits FU' NZ' RM' AC) as [out [used [R _]]].
        exists (if copy then c :: out else out), used. split; [now apply R_char|].
        rewrite <- AO. rewrite (proj2 (Nat.leb_le cap (length (acc' ++ out)))); [reflexivity|].
        apply Nat.leb_le in CP. rewrite app_length. lia.
      * apply Nat.leb_gt in CP. destruct (IH (left ++ [c]) rest acc' hits FU' NZ' RM' CP) as [out [used [R EQ]]].
        exists (if copy then c :: out else out), used. split; [now apply R_char|].
        rewrite EQ, AO. reflexivity.
Qed.
