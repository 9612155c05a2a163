(** Proofs about Read_Model: a channel in a window is the same as in the whole files. *)
From Coq Require Import List NArith ZArith Arith Bool Lia.
From Verif Require Import Base Chan_Model Chan_Spec Chan_Proofs Chan_Proofs4 Read_Model.
Import ListNotations.
Local Open Scope res_scope.
Local Open Scope Z_scope.

Definition plus (d : Z) (r : res Z) : res Z := let* x := r in Ok (x + d).

Section Words.
  Variables hyp HYP : list mword.
  Variables d lo h_end : Z.
  Hypothesis L1 : 1 <= lo.
  Hypothesis L2 : 1 <= lo + d.
  Hypothesis B1 : h_end <= Z.of_nat (length hyp).
  Hypothesis B2 : h_end + d <= Z.of_nat (length HYP).
  Hypothesis AG : forall i, lo <= i <= h_end + 1 -> wd HYP (i + d) = wd hyp i.

  Lemma leb_shift a b : (a + d <=? b + d) = (a <=? b).
  Proof. destruct (Z.leb_spec (a + d) (b + d)), (Z.leb_spec a b); auto; lia. Qed.

  Lemma alt_mid_shift f1 : forall f2 ch mid, lo <= ch -> (Z.to_nat (h_end + 1 - ch) < f1)%nat -> (Z.to_nat (h_end + 1 - ch) < f2)%nat ->
    alt_mid f2 HYP (h_end + d) (ch + d) mid = alt_mid f1 hyp h_end ch mid.
  Proof.
    induction f1 as [|f1 IH]; intros f2 ch mid LO F1 F2; [lia|]. destruct f2 as [|f2]; [lia|]. cbn [alt_mid].
    rewrite leb_shift. destruct (Z.leb_spec ch h_end) as [G|G]; [|reflexivity].
    rewrite AG by lia. destruct (wd hyp ch) as [w| | |]; cbn [rbind]; try reflexivity.
    destruct (is_end w); [reflexivity|]. replace (ch + d + 1) with (ch + 1 + d) by lia. apply IH; lia.
  Qed.
  Lemma to_end_shift f1 : forall f2 e, lo - 1 <= e -> (Z.to_nat (h_end + 1 - e) < f1)%nat -> (Z.to_nat (h_end + 1 - e) < f2)%nat ->
    to_end f2 HYP (h_end + d) (e + d) = plus d (to_end f1 hyp h_end e).
  Proof.
    induction f1 as [|f1 IH]; intros f2 e LO F1 F2; [lia|]. destruct f2 as [|f2]; [lia|]. cbn [to_end].
    rewrite leb_shift. destruct (Z.leb_spec e h_end) as [G|G]; [|reflexivity].
    replace (e + d + 1) with (e + 1 + d) by lia. rewrite AG by lia. destruct (wd hyp (e + 1)) as [w| | |]; cbn [rbind]; try reflexivity.
    destruct (is_end w); [reflexivity|]. apply IH; lia.
  Qed.
  Lemma to_end_range f : forall e x, to_end f hyp h_end e = Ok x -> e <= x <= Z.max e (h_end + 1).
  Proof.
    induction f as [|f IH]; intros e x E; [discriminate|]. cbn [to_end] in E.
    destruct (Z.leb_spec e h_end) as [G|G]; [|injection E as <-; lia].
    destruct (wd hyp (e + 1)) as [w| | |]; cbn [rbind] in E; try discriminate.
    destruct (is_end w); [injection E as <-; lia|]. apply IH in E. lia.
  Qed.
  Lemma take_words_shift limit f1 : forall f2 e, lo - 1 <= e -> (Z.to_nat (h_end - e) < f1)%nat -> (Z.to_nat (h_end - e) < f2)%nat ->
    take_words f2 HYP (h_end + d) limit (e + d) = plus d (take_words f1 hyp h_end limit e).
  Proof.
    induction f1 as [|f1 IH]; intros f2 e LO F1 F2; [lia|]. destruct f2 as [|f2]; [lia|]. cbn [take_words].
    replace (e + d + 1) with (e + 1 + d) by lia.
    rewrite leb_shift. destruct (Z.leb_spec (e + 1) h_end) as [G|G]; [|reflexivity].
    rewrite AG by lia. destruct (wd hyp (e + 1)) as [w| | |]; cbn [rbind]; try reflexivity.
    rewrite (alt_mid_shift (S (length hyp)) (S (length HYP))) by lia.
    destruct (if alternate w then alt_mid (S (length hyp)) hyp h_end (e + 1) 0 else Ok (mid2 w)) as [mid| | |]; cbn [rbind]; try reflexivity.
    destruct (2 * limit <=? mid); [reflexivity|]. destruct (alternate w).
    - rewrite (to_end_shift (S (S (length hyp))) (S (S (length HYP)))) by lia. unfold plus at 1.
      destruct (to_end (S (S (length hyp))) hyp h_end e) as [x| | |] eqn:ET; cbn [rbind]; try reflexivity.
      apply to_end_range in ET. rewrite leb_shift. destruct (Z.leb_spec x h_end) as [G2|G2].
      + replace (x + d + 1) with (x + 1 + d) by lia. apply IH; lia.
      + apply IH; lia.
    - apply IH; lia.
  Qed.
  Lemma take_words_range limit f : forall e x, take_words f hyp h_end limit e = Ok x -> e <= x <= Z.max e (h_end + 1).
  Proof.
    induction f as [|f IH]; intros e x E; [discriminate|]. cbn [take_words] in E.
    destruct (Z.leb_spec (e + 1) h_end) as [G|G]; [|injection E as <-; lia].
    destruct (wd hyp (e + 1)) as [w| | |]; cbn [rbind] in E; try discriminate.
    destruct (if alternate w then alt_mid (S (length hyp)) hyp h_end (e + 1) 0 else Ok (mid2 w)) as [mid| | |]; cbn [rbind] in E; try discriminate.
    destruct (2 * limit <=? mid); [injection E as <-; lia|]. destruct (alternate w).
    - destruct (to_end (S (S (length hyp))) hyp h_end e) as [y| | |] eqn:ET; cbn [rbind] in E; try discriminate.
      apply to_end_range in ET. apply IH in E. destruct (Z.leb_spec y h_end); lia.
    - apply IH in E. lia.
  Qed.

  Section Segs.
    Variables stm STM : list seg.
    Variables b r_lo r_end : Z.
    Hypothesis AS : forall i, r_lo <= i <= r_end -> nth_error STM (Z.to_nat (i + b)) = nth_error stm (Z.to_nat i).
    Hypothesis AN : forall i, r_lo <= i <= r_end -> (i + b =? Z.of_nat (length STM) - 1) = (i =? Z.of_nat (length stm) - 1).
    Hypothesis E0 : lo - 1 <= h_end.

    Lemma utt_shift e rs : lo - 1 <= e -> r_lo <= rs <= r_end ->
      segment_hyp_for_utt HYP STM (e + d) (h_end + d) (rs + b) (r_end + b) = plus d (segment_hyp_for_utt hyp stm e h_end rs r_end).
    Proof.
      intros LO R. unfold segment_hyp_for_utt. rewrite AN by exact R.
      assert (EE : (rs + b =? r_end + b) = (rs =? r_end)) by (destruct (Z.eqb_spec (rs + b) (r_end + b)), (Z.eqb_spec rs r_end); auto; lia).
      rewrite EE. destruct ((rs =? r_end) || (rs =? Z.of_nat (length stm) - 1)); [reflexivity|].
      rewrite AS by exact R. destruct (nth_error stm (Z.to_nat rs)) as [s|]; [|reflexivity].
      apply take_words_shift; lia.
    Qed.
    Lemma utt_range e rs x : lo - 1 <= e -> segment_hyp_for_utt hyp stm e h_end rs r_end = Ok x -> lo - 1 <= x <= Z.max e (h_end + 1).
    Proof.
      intros LO. unfold segment_hyp_for_utt. destruct (_ || _); [intros E; injection E as <-; lia|].
      destruct (nth_error stm (Z.to_nat rs)) as [s|]; [|discriminate]. intros E. apply take_words_range in E. lia.
    Qed.

    Definition moved (c : cut) : cut := {| c_seg := c_seg c + b; c_from := c_from c + d; c_to := c_to c + d; c_scored := c_scored c |}.
    Definition in_range (c : cut) : Prop := r_lo <= c_seg c <= r_end /\ lo <= c_from c /\ c_to c <= h_end + 1.
    Lemma loop_shift o ws segs : forall rs c e, r_lo <= rs -> rs + Z.of_nat (length segs) <= r_end + 1 -> lo - 1 <= e <= h_end + 1 -> lo <= c ->
      channel_loop o HYP STM ws (h_end + d) (r_end + b) segs (rs + b) (c + d) (e + d) =
        (let* l := channel_loop o hyp stm ws h_end r_end segs rs c e in Ok (map moved l)) /\
      (forall l, channel_loop o hyp stm ws h_end r_end segs rs c e = Ok l -> Forall in_range l).
    Proof.
      induction segs as [|s segs IH]; intros rs c e R1 R2 RE RC; cbn [channel_loop length] in *.
      - split; [reflexivity|]. intros l E. injection E as <-. constructor.
      - replace (rs + b + 1) with (rs + 1 + b) by lia.
        destruct ((reduce_ref o || reduce_hyp o) && negb (seg_used o ws s)); [apply IH; lia|].
        rewrite utt_shift by lia. destruct (segment_hyp_for_utt hyp stm e h_end rs r_end) as [x| | |] eqn:EU; cbn [plus rbind]; try (split; [reflexivity|discriminate]).
        apply utt_range in EU; [|lia]. replace (x + d + 1) with (x + 1 + d) by lia.
        destruct (IH (rs + 1) (x + 1) x ltac:(lia) ltac:(lia) ltac:(lia) ltac:(lia)) as [IHa IHb]. rewrite IHa.
        destruct (channel_loop o hyp stm ws h_end r_end segs (rs + 1) (x + 1) x) as [l| | |]; cbn [rbind]; try (split; [reflexivity|discriminate]).
        split; [reflexivity|]. intros l' E. injection E as <-. constructor; [|apply IHb; reflexivity].
        unfold in_range. cbn [c_seg c_from c_to]. lia.
    Qed.
  End Segs.
End Words.

(** Two arrays that agree from a place on: [A] is what the first has from there, the second has
    also [X], which counts only if the first is enough. *)
Lemma nth_skip {A} (l : list A) (k i : nat) : nth_error (skipn k l) i = nth_error l (k + i).
Proof. revert l. induction k as [|k IH]; intros l; [reflexivity|]. destruct l; [destruct i; reflexivity|]. cbn [skipn Nat.add nth_error]. apply IH. Qed.
Lemma skip_skip {A} (l : list A) (k i : nat) : skipn i (skipn k l) = skipn (k + i) l.
Proof. revert l. induction k as [|k IH]; intros l; [reflexivity|]. destruct l; [rewrite !skipn_nil; reflexivity|]. cbn [skipn Nat.add]. apply IH. Qed.

Lemma wd_shift {A} (l L X : list A) (s S : Z) : 1 <= s -> 1 <= S -> skipn (Z.to_nat (S - 1)) L = skipn (Z.to_nat (s - 1)) l ++ X ->
  forall i, s <= i -> (X = [] \/ i <= Z.of_nat (length l)) -> wd L (i + (S - s)) = wd l i.
Proof.
  intros H1 H2 E i Hi HX. unfold wd. rewrite !(proj2 (Z.ltb_ge _ _)) by lia.
  assert (E1 : nth_error L (Z.to_nat (i + (S - s) - 1)) = nth_error (skipn (Z.to_nat (S - 1)) L) (Z.to_nat (i - s))) by (rewrite nth_skip; f_equal; lia).
  assert (E2 : nth_error l (Z.to_nat (i - 1)) = nth_error (skipn (Z.to_nat (s - 1)) l) (Z.to_nat (i - s))) by (rewrite nth_skip; f_equal; lia).
  rewrite E1, E2, E. destruct HX as [->|HX]; [rewrite app_nil_r; reflexivity|].
  rewrite nth_error_app1; [reflexivity|]. rewrite skipn_length. lia.
Qed.
Lemma words_of_shift {A} (l L X : list A) (s S : Z) : 1 <= s -> 1 <= S -> skipn (Z.to_nat (S - 1)) L = skipn (Z.to_nat (s - 1)) l ++ X ->
  forall i j, s <= i -> (X = [] \/ j <= Z.of_nat (length l)) -> words_of L (i + (S - s)) (j + (S - s)) = words_of l i j.
Proof.
  intros H1 H2 E i j Hi HX. unfold words_of.
  replace (j + (S - s) + 1 - (i + (S - s))) with (j + 1 - i) by lia.
  assert (E1 : skipn (Z.to_nat (i + (S - s) - 1)) L = skipn (Z.to_nat (i - s)) (skipn (Z.to_nat (S - 1)) L)) by (rewrite skip_skip; f_equal; lia).
  assert (E2 : skipn (Z.to_nat (i - 1)) l = skipn (Z.to_nat (i - s)) (skipn (Z.to_nat (s - 1)) l)) by (rewrite skip_skip; f_equal; lia).
  rewrite E1, E2, E. destruct HX as [->|HX]; [rewrite app_nil_r; reflexivity|].
  rewrite skipn_app, firstn_app.
  replace (Z.to_nat (j + 1 - i) - _)%nat with O; [cbn [firstn]; apply app_nil_r|].
  rewrite skipn_length, skipn_length. lia.
Qed.
Lemma nth_shift {A} (l L X : list A) (s S : Z) : 0 <= s -> 0 <= S -> skipn (Z.to_nat S) L = skipn (Z.to_nat s) l ++ X ->
  forall i, s <= i -> (X = [] \/ i < Z.of_nat (length l)) -> nth_error L (Z.to_nat (i + (S - s))) = nth_error l (Z.to_nat i).
Proof.
  intros H1 H2 E i Hi HX.
  assert (E1 : nth_error L (Z.to_nat (i + (S - s))) = nth_error (skipn (Z.to_nat S) L) (Z.to_nat (i - s))) by (rewrite nth_skip; f_equal; lia).
  assert (E2 : nth_error l (Z.to_nat i) = nth_error (skipn (Z.to_nat s) l) (Z.to_nat (i - s))) by (rewrite nth_skip; f_equal; lia).
  rewrite E1, E2, E. destruct HX as [->|HX]; [rewrite app_nil_r; reflexivity|].
  rewrite nth_error_app1; [reflexivity|]. rewrite skipn_length. lia.
Qed.
Lemma segs_shift (l L X : list seg) (s S : Z) : 0 <= s -> 0 <= S -> skipn (Z.to_nat S) L = skipn (Z.to_nat s) l ++ X ->
  forall j, (X = [] \/ j < Z.of_nat (length l)) -> segs_of L S (j + (S - s)) = segs_of l s j.
Proof.
  intros H1 H2 E j HX. unfold segs_of. rewrite E. replace (j + (S - s) + 1 - S) with (j + 1 - s) by lia.
  destruct HX as [->|HX]; [rewrite app_nil_r; reflexivity|]. rewrite firstn_app.
  replace (Z.to_nat (j + 1 - s) - _)%nat with O; [cbn [firstn]; apply app_nil_r|].
  rewrite skipn_length. lia.
Qed.
Lemma change_shift {A} (same : A -> bool) d l : forall x, change_at same (x + d) l = option_map (fun e => e + d) (change_at same x l).
Proof.
  induction l as [|a l IH]; intros x; [reflexivity|]. cbn [change_at]. destruct (same a).
  - replace (x + d + 1) with (x + 1 + d) by lia. apply IH.
  - cbn [option_map]. f_equal. lia.
Qed.
Lemma change_app {A} (same : A -> bool) l X : forall x e, change_at same x l = Some e -> change_at same x (l ++ X) = Some e.
Proof. induction l as [|a l IH]; intros x e E; [discriminate|]. cbn [app change_at] in *. destruct (same a); auto. Qed.
Lemma change_bounds {A} (same : A -> bool) l : forall x e, change_at same x l = Some e -> x - 1 <= e < x + Z.of_nat (length l) - 1.
Proof.
  induction l as [|s l IH]; intros x e E; [discriminate|]. cbn [change_at] in E. cbn [length].
  destruct (same s); [apply IH in E; lia|injection E as <-; lia].
Qed.
