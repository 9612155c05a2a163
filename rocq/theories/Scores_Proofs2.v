(** Proofs about McNemar's table. *)
From Coq Require Import List Arith ZArith NArith QArith Bool Lia Lqa.
From Verif Require Import Base NetDp_Model Word_Model Order_Model Path_Model Path_Spec Path_Proofs Binom_Model Binom_Spec Binom_Proofs Scores_Model Scores_Spec Scores_Proofs.
Import ListNotations.
Local Open Scope res_scope.
Local Open Scope nat_scope.

Definition bumpif (t : table) (p : sentence * sentence) : table :=
  if same (s_id (fst p)) (s_id (snd p)) then bump t (has_error (fst p)) (has_error (snd p)) else t.

Lemma kept_ok g ys i y : entries (g_path g) ys -> nth_error ys i = Some y -> kept g i = Ok y.
Proof. intros H E. unfold kept. rewrite (get_entry _ _ _ _ H E). reflexivity. Qed.

Lemma snt2_ok x g ys : entries (g_path g) ys -> forall k i t, i + k = length ys ->
  snt2_loop x g k i t = Ok (fold_left (fun t y => bumpif t (x, y)) (skipn i ys) t).
Proof.
  intros H. induction k; intros i t E; cbn [snt2_loop].
  - rewrite skipn_all2 by lia. reflexivity.
  - destruct (nth_error ys i) as [y|] eqn:Y; [|apply nth_error_None in Y; lia].
    rewrite (kept_ok _ _ _ _ H Y). cbn [rbind]. rewrite IHk by lia.
    assert (Sk : skipn i ys = y :: skipn (i + 1) ys).
    { clear - Y. revert i Y. induction ys; intros [|i] Y; try discriminate; cbn in *; [injection Y as ->; reflexivity|]. rewrite (IHys i Y). reflexivity. }
    rewrite Sk. reflexivity.
Qed.
Lemma fold_pairs {T X Y} (f : T -> X * Y -> T) ys : forall xs t,
  fold_left (fun t x => fold_left (fun t y => f t (x, y)) ys t) xs t = fold_left f (list_prod xs ys) t.
Proof.
  induction xs as [|x xs IH]; intros t; cbn [fold_left list_prod]; [reflexivity|]. rewrite fold_left_app, IH. f_equal.
  clear. revert t. induction ys as [|y ys IHy]; intros t; cbn [fold_left map]; [reflexivity|]. apply IHy.
Qed.
Lemma snt1_ok g1 g2 xs ys : entries (g_path g1) xs -> entries (g_path g2) ys -> forall k i t, i + k = length xs ->
  snt1_loop g1 g2 k i t = Ok (fold_left bumpif (list_prod (skipn i xs) ys) t).
Proof.
  intros H1 H2. induction k; intros i t E; cbn [snt1_loop].
  - rewrite skipn_all2 by lia. reflexivity.
  - destruct (nth_error xs i) as [x|] eqn:X; [|apply nth_error_None in X; lia].
    rewrite (kept_ok _ _ _ _ H1 X). cbn [rbind]. rewrite (snt2_ok x g2 ys H2) by (apply H2). cbn [rbind skipn]. rewrite IHk by lia.
    assert (Sk : skipn i xs = x :: skipn (i + 1) xs).
    { clear - X. revert i X. induction xs; intros [|i] X; try discriminate; cbn in *; [injection X as ->; reflexivity|]. rewrite (IHxs i X). reflexivity. }
    rewrite Sk. cbn [list_prod]. rewrite fold_left_app. f_equal. f_equal.
    clear. revert t. induction ys as [|y ys IHy]; intros t; cbn [fold_left map]; [reflexivity|]. apply IHy.
Qed.

(** the pairs looked at *)
Definition looked (cs1 cs2 : list call) : list (sentence * sentence) :=
  flat_map (fun n => list_prod (kept_sentences (calls_of n cs1)) (kept_sentences (calls_of n cs2))) (speakers cs1).

Lemma no_calls n cs : ~ In n (speakers cs) -> calls_of n cs = [].
Proof.
  intros H. unfold calls_of. destruct (filter _ cs) as [|d l] eqn:Q; [reflexivity|exfalso].
  assert (I : In d (filter (fun c0 => same n (speaker_of c0)) cs)) by (rewrite Q; left; reflexivity).
  apply filter_In in I. destruct I as [I S]. apply H. apply in_speakers. exists d. split; [exact I|]. symmetry. apply same_iff. exact S.
Qed.

Lemma spk1_ok sys1 sys2 cs1 cs2 : state_ok sys1 cs1 -> state_ok sys2 cs2 ->
  spk1_loop sys1 sys2 (p_num sys1) 0 (0, 0, 0, 0)%Z = Ok (fold_left bumpif (looked cs1 cs2) (0, 0, 0, 0)%Z).
Proof.
  intros (gs1 & R1 & N1 & F1) (gs2 & R2 & N2 & F2).
  assert (G : forall k i t, i + k = length gs1 ->
    spk1_loop sys1 sys2 k i t = Ok (fold_left bumpif (flat_map (fun n => list_prod (kept_sentences (calls_of n cs1)) (kept_sentences (calls_of n cs2))) (map g_name (skipn i gs1))) t)).
  { induction k; intros i t E; cbn [spk1_loop].
    - rewrite skipn_all2 by lia. reflexivity.
    - destruct (nth_error gs1 i) as [g|] eqn:X; [|apply nth_error_None in X; lia].
      rewrite (get_entry sys1 gs1 i g (proj1 R1) X). cbn [rbind].
      assert (Sk : skipn i gs1 = g :: skipn (i + 1) gs1).
      { clear - X. revert i X. induction gs1; intros [|i] X; try discriminate; cbn in *; [injection X as ->; reflexivity|]. rewrite (IHgs1 i X). reflexivity. }
      rewrite Sk. cbn [map flat_map]. rewrite fold_left_app.
      assert (Ig : inv g (calls_of (g_name g) cs1)) by (rewrite Forall_forall in F1; apply F1; eapply nth_error_In; eassumption).
      destruct R2 as (R2 & _). assert (Nn : p_num sys2 = length gs2) by apply R2. rewrite Nn.
      destruct (find_ok sys2 gs2 (g_name g) R2 (length gs2) 0 eq_refl) as [[Ef Abs]|(j & g2 & Ef & Hj & _ & Gn & _)]; rewrite Ef; cbn [rbind].
      + rewrite (no_calls (g_name g) cs2).
        * replace (list_prod (kept_sentences (calls_of (g_name g) cs1)) (kept_sentences [])) with (@nil (sentence * sentence)).
          { cbn [fold_left]. apply IHk. lia. }
          unfold kept_sentences at 2. cbn [filter map]. clear. induction (kept_sentences _); [reflexivity|exact IHl].
        * rewrite <- N2. intros I. apply in_map_iff in I. destruct I as (h & Hn & I). apply In_nth_error in I. destruct I as [j Hj].
          apply (Abs j h Hj); [lia|exact Hn].
      + rewrite (get_entry sys2 gs2 j g2 R2 Hj). cbn [rbind].
        assert (Ig2 : inv g2 (calls_of (g_name g2) cs2)) by (rewrite Forall_forall in F2; apply F2; eapply nth_error_In; eassumption).
        rewrite Gn in Ig2. destruct Ig as [_ (K1 & _)], Ig2 as [_ (K2 & _)].
        rewrite (snt1_ok g g2 _ _ K1 K2) by (apply K1). cbn [rbind skipn]. apply IHk. lia. }
  assert (Nn : p_num sys1 = length gs1) by apply R1. rewrite Nn. rewrite G by lia. unfold looked. cbn [skipn]. rewrite N1. reflexivity.
Qed.

(** * the cells of the table *)
Definition cell1 (p : sentence * sentence) : bool := same (s_id (fst p)) (s_id (snd p)) && (has_error (fst p) && negb (has_error (snd p))).
Definition cell2 (p : sentence * sentence) : bool := same (s_id (fst p)) (s_id (snd p)) && (negb (has_error (fst p)) && has_error (snd p)).
Definition nb {A} (f : A -> bool) (l : list A) : nat := length (filter f l).

Lemma table_cells l : forall a b c d, exists a' d',
  fold_left bumpif l (a, b, c, d) = (a', b + Z.of_nat (nb cell2 l), c + Z.of_nat (nb cell1 l), d')%Z.
Proof.
  induction l as [|p l IH]; intros a b c d; cbn [fold_left].
  - exists a, d. unfold nb. cbn [filter length]. rewrite !Z.add_0_r. reflexivity.
  - unfold bumpif at 2, nb. cbn [filter]. unfold cell1 at 1, cell2 at 1.
    destruct (same _ _); cbn [andb]; [|apply IH].
    destruct (has_error (fst p)), (has_error (snd p)); cbn [bump negb andb].
    + apply IH.
    + destruct (IH a b (c + 1)%Z d) as (a' & d' & ->). exists a', d'. cbn [length]. unfold nb. match goal with |- (?x, ?p, ?q, ?r) = (?x, ?p', ?q', ?r) => replace p' with p by lia; replace q' with q by lia; reflexivity end.
    + destruct (IH a (b + 1)%Z c d) as (a' & d' & ->). exists a', d'. cbn [length]. unfold nb. match goal with |- (?x, ?p, ?q, ?r) = (?x, ?p', ?q', ?r) => replace p' with p by lia; replace q' with q by lia; reflexivity end.
    + apply IH.
Qed.

(** * from the speakers to all pairs *)
Fixpoint nsum (l : list nat) : nat := match l with [] => 0 | x :: r => x + nsum r end.
Lemma nsum_app l l' : nsum (l ++ l') = nsum l + nsum l'.
Proof. induction l; cbn [nsum app]; lia. Qed.
Lemma nb_app {A} (f : A -> bool) l l' : nb f (l ++ l') = nb f l + nb f l'.
Proof. unfold nb. rewrite filter_app, app_length. reflexivity. Qed.
Lemma nb_flat {A B} (f : B -> bool) (g : A -> list B) l : nb f (flat_map g l) = nsum (map (fun x => nb f (g x)) l).
Proof. induction l; cbn [flat_map map nsum]; [reflexivity|]. rewrite nb_app, IHl. reflexivity. Qed.
Lemma nb_map {A B} (f : B -> bool) (g : A -> B) l : nb f (map g l) = nb (fun x => f (g x)) l.
Proof. induction l; [reflexivity|]. unfold nb in *. cbn [map filter]. destruct (f (g a)); cbn [length]; rewrite IHl; reflexivity. Qed.
Lemma nb_prod {A B} (f : A * B -> bool) (ys : list B) xs : nb f (list_prod xs ys) = nsum (map (fun x => nb (fun y => f (x, y)) ys) xs).
Proof. induction xs; cbn [list_prod map nsum]; [reflexivity|]. rewrite nb_app, IHxs, nb_map. reflexivity. Qed.
Lemma nb_filter {A} (f h : A -> bool) l : nb f (filter h l) = nb (fun x => h x && f x) l.
Proof. unfold nb. induction l; [reflexivity|]. cbn [filter]. destruct (h a); cbn [filter andb]; [destruct (f a); cbn [length]; rewrite IHl; reflexivity|exact IHl]. Qed.
Lemma nb_ext {A} (f h : A -> bool) l : (forall x, f x = h x) -> nb f l = nb h l.
Proof. intros H. unfold nb. induction l; [reflexivity|]. cbn [filter]. rewrite H. destruct (h a); cbn [length]; rewrite IHl; reflexivity. Qed.
Lemma filter_comm {A} (f h : A -> bool) l : filter f (filter h l) = filter h (filter f l).
Proof. induction l; [reflexivity|]. cbn [filter]. destruct (h a) eqn:H, (f a) eqn:F; cbn [filter]; rewrite ?H, ?F, IHl; reflexivity. Qed.

(** every element is counted under its own key once *)
Lemma by_key (h : call -> nat) l : forall ns, NoDup ns -> (forall c, In c l -> In (speaker_of c) ns) ->
  nsum (map (fun n => nsum (map h (calls_of n l))) ns) = nsum (map h l).
Proof.
  induction l as [|c l IH]; intros ns ND H.
  - cbn [calls_of filter map nsum]. clear. induction ns; [reflexivity|exact IHns].
  - cbn [map nsum]. rewrite <- (IH ns ND) by (intros d I; apply H; right; exact I).
    assert (In (speaker_of c) ns) by (apply H; left; reflexivity).
    assert (K : nsum (map (fun n => nsum (map h (calls_of n (c :: l)))) ns)
              = nsum (map (fun n => if same n (speaker_of c) then h c else 0) ns) + nsum (map (fun n => nsum (map h (calls_of n l))) ns)).
    { clear. induction ns as [|n ns IHn]; [reflexivity|]. cbn [map nsum]. rewrite IHn. unfold calls_of at 1. cbn [filter].
      destruct (same n (speaker_of c)); cbn [map nsum]; fold (calls_of n l); lia. }
    rewrite K. f_equal. clear - ND H0. induction ns as [|n ns IHn]; [destruct H0|]. cbn [map nsum]. inversion ND as [|? ? Nn ND']; subst.
    destruct H0 as [->|I].
    + rewrite same_refl. replace (nsum _) with 0; [lia|]. symmetry. clear - Nn. induction ns as [|m ns IHm]; [reflexivity|]. cbn [map nsum].
      replace (same m (speaker_of c)) with false by (symmetry; apply same_false; intros ->; apply Nn; left; reflexivity).
      apply IHm. intros I. apply Nn. right. exact I.
    + replace (same n (speaker_of c)) with false by (symmetry; apply same_false; intros ->; contradiction). rewrite IHn by assumption. reflexivity.
Qed.

Definition on_sent (f : sentence * sentence -> bool) (p : call * call) : bool :=
  same (speaker_of (fst p)) (speaker_of (snd p)) && f (sentence_of (fst p), sentence_of (snd p)).

Lemma looked_all (f : sentence * sentence -> bool) cs1 cs2 :
  nb f (looked cs1 cs2) = nb (on_sent f) (list_prod (filter kept_of cs1) (filter kept_of cs2)).
Proof.
  unfold looked. rewrite nb_flat, nb_prod. set (K1 := filter kept_of cs1). set (K2 := filter kept_of cs2).
  rewrite <- (by_key (fun x => nb (fun y => on_sent f (x, y)) K2) K1 (speakers cs1)).
  - f_equal. apply map_ext. intros n. rewrite nb_prod. unfold kept_sentences. unfold calls_of at 1 2. rewrite !(filter_comm kept_of). fold K1 K2.
    rewrite map_map. f_equal. unfold calls_of. apply map_ext_in. intros x I. apply filter_In in I. destruct I as [_ S]. apply same_iff in S.
    rewrite nb_map, nb_filter. apply nb_ext. intros y. unfold on_sent. cbn [fst snd]. rewrite S. reflexivity.
  - apply speakers_nodup.
  - intros c I. apply in_speakers. exists c. split; [|reflexivity]. apply filter_In in I. apply I.
Qed.

Lemma count_nb {A} (P : A -> Prop) (f : A -> bool) l : (forall x, f x = true <-> P x) -> count_of P l (nb f l).
Proof.
  intros H. induction l; [constructor|]. unfold nb in *. cbn [filter]. destruct (f a) eqn:E; cbn [length].
  - apply co_yes; [apply H; exact E|exact IHl].
  - apply co_no; [intros Q; apply H in Q; congruence|exact IHl].
Qed.
Lemma count_unique {A} (P : A -> Prop) l k : count_of P l k -> forall k', count_of P l k' -> k = k'.
Proof. induction 1; intros k' H'; inversion H'; subst; try contradiction; auto. Qed.

Lemma error_wrong x : has_error x = true <-> wrong x.
Proof. apply bad_wrong. Qed.
Lemma cell1_spec p : on_sent cell1 p = true <-> same_sentence p /\ first_wrong p /\ ~ second_wrong p.
Proof.
  unfold on_sent, cell1, same_sentence, first_wrong, second_wrong. cbn [fst snd]. rewrite !andb_true_iff, negb_true_iff, !same_iff, error_wrong.
  rewrite <- (error_wrong (sentence_of (snd p))). destruct (has_error (sentence_of (snd p))); intuition congruence.
Qed.
Lemma cell2_spec p : on_sent cell2 p = true <-> same_sentence p /\ ~ first_wrong p /\ second_wrong p.
Proof.
  unfold on_sent, cell2, same_sentence, first_wrong, second_wrong. cbn [fst snd]. rewrite !andb_true_iff, negb_true_iff, !same_iff, error_wrong.
  rewrite <- (error_wrong (sentence_of (fst p))). destruct (has_error (sentence_of (fst p))); intuition congruence.
Qed.

(** exchanging the systems *)
Lemma nsum_swap {A B} (f : A -> B -> bool) ys : forall xs, nsum (map (fun x => nb (f x) ys) xs) = nsum (map (fun y => nb (fun x => f x y) xs) ys).
Proof.
  induction xs as [|x xs IH]; cbn [map nsum].
  - unfold nb. cbn [filter length]. clear. induction ys; [reflexivity|exact IHys].
  - rewrite IH. clear. induction ys as [|y ys IHy]; [reflexivity|]. unfold nb in *. cbn [filter map nsum] in *.
    destruct (f x y); cbn [length]; lia.
Qed.
Lemma nb_swap {A B} (f : A * B -> bool) xs ys : nb f (list_prod xs ys) = nb (fun p => f (snd p, fst p)) (list_prod ys xs).
Proof. rewrite !nb_prod. cbn [fst snd]. apply (nsum_swap (fun x y => f (x, y))). Qed.
Lemma same_sym a b : same a b = same b a.
Proof. destruct (same b a) eqn:E; [apply same_iff in E; subst; apply same_refl|apply same_false in E; apply same_false; congruence]. Qed.
Lemma cells_swap cs1 cs2 : nb cell1 (looked cs1 cs2) = nb cell2 (looked cs2 cs1).
Proof.
  rewrite !looked_all, nb_swap. apply nb_ext. intros [y x]. unfold on_sent, cell1, cell2. cbn [fst snd].
  rewrite (same_sym (speaker_of x)), (same_sym (s_id (sentence_of x))). destruct (has_error _), (has_error _); reflexivity.
Qed.

(** * the verdict *)
Lemma mcnemar_ok sys1 sys2 cs1 cs2 : state_ok sys1 cs1 -> state_ok sys2 cs2 ->
  exists a' d', mcnemar_by_sent sys1 sys2 = Ok (do_mcnemar (a', Z.of_nat (nb cell2 (looked cs1 cs2)), Z.of_nat (nb cell1 (looked cs1 cs2)), d')%Z).
Proof.
  intros H1 H2. unfold mcnemar_by_sent. rewrite (spk1_ok _ _ _ _ H1 H2). cbn [rbind].
  destruct (table_cells (looked cs1 cs2) 0 0 0 0)%Z as (a' & d' & ->). exists a', d'. rewrite !Z.add_0_l. reflexivity.
Qed.

Lemma verdict a b x y : a <> b ->
  let r := fst (do_mcnemar (x, Z.of_nat b, Z.of_nat a, y)) in let c := snd (do_mcnemar (x, Z.of_nat b, Z.of_nat a, y)) in
  (r <> 0%Z <-> (c < 1 # 20)%Q) /\ (r = 0%Z \/ r = 1%Z /\ b < a \/ r = (-1)%Z /\ a < b)
  /\ (a + b <= 20 -> (c == 2 * at_most (Nat.min a b) (a + b) (1 # 2))%Q)
  /\ (20 < a + b -> (c < 1 # 20)%Q).
Proof.
  intros N. unfold do_mcnemar. replace (_ || _)%bool with false.
  2:{ symmetry. apply orb_false_iff. split; [|apply Z.eqb_neq; lia]. apply andb_false_iff. destruct (Z.eqb_spec (Z.of_nat b) 0); [right; apply Z.eqb_neq; lia|left; reflexivity]. }
  unfold compute_mcnemar. cbn [fst snd]. cbv zeta.
  replace (if Z.of_nat a <? Z.of_nat b then Z.of_nat a else Z.of_nat b)%Z with (Z.of_nat (Nat.min a b)) by (destruct (Z.ltb_spec (Z.of_nat a) (Z.of_nat b)); lia).
  replace (Z.of_nat a + Z.of_nat b)%Z with (Z.of_nat (a + b)) by lia.
  set (c := (2 * acc_binomial _ _ _)%Q).
  split; [|split; [|split]].
  - destruct (Qle_bool (5 # 100) c) eqn:E; cbn [negb].
    + apply Qle_bool_iff in E. unfold NO_DIFF. split; [congruence|]. intros L. exfalso. clearbody c. lra.
    + split; [|intros _; unfold TEST_DIFF; destruct (_ <? _)%Z; discriminate]. intros _. apply Qnot_le_lt. intros L.
      assert (Qle_bool (5 # 100) c = true) by (apply Qle_bool_iff; clearbody c; lra). congruence.
  - destruct (negb _); [|left; reflexivity]. right. unfold TEST_DIFF. destruct (Z.ltb_spec (Z.of_nat b) (Z.of_nat a)); [left|right]; split; try reflexivity; lia.
  - intros L. unfold c, acc_binomial. rewrite small_n by lia. replace (Z.to_nat (Z.of_nat (Nat.min a b) + 1)) with (S (Nat.min a b)) by lia.
    rewrite acc_loop_at_most by lia. reflexivity.
  - intros L. unfold c, acc_binomial. rewrite large_n by lia. apply normal_tail_small; lia.
Qed.

(** * all four cells *)
Definition cell (e1 e2 : bool) (p : sentence * sentence) : bool :=
  same (s_id (fst p)) (s_id (snd p)) && (Bool.eqb (has_error (fst p)) e1 && Bool.eqb (has_error (snd p)) e2).
Lemma table_all l : forall a b c d,
  fold_left bumpif l (a, b, c, d) = (a + Z.of_nat (nb (cell false false) l), b + Z.of_nat (nb (cell false true) l),
                                     c + Z.of_nat (nb (cell true false) l), d + Z.of_nat (nb (cell true true) l))%Z.
Proof.
  induction l as [|p l IH]; intros a b c d; cbn [fold_left].
  - unfold nb. cbn [filter length]. rewrite !Z.add_0_r. reflexivity.
  - unfold bumpif at 2, nb. cbn [filter]. unfold cell at 1 4 7 10.
    destruct (same _ _); cbn [andb]; [|apply IH].
    destruct (has_error (fst p)), (has_error (snd p)); cbn [bump Bool.eqb andb]; rewrite IH; unfold nb; cbn [length];
    match goal with |- (?x, ?p, ?q, ?r) = (?x', ?p', ?q', ?r') => replace x' with x by lia; replace p' with p by lia; replace q' with q by lia; replace r' with r by lia; reflexivity end.
Qed.
Lemma cell_spec e1 e2 p : on_sent (cell e1 e2) p = true <-> same_sentence p /\ (first_wrong p <-> e1 = true) /\ (second_wrong p <-> e2 = true).
Proof.
  unfold on_sent, cell, same_sentence, first_wrong, second_wrong. cbn [fst snd]. rewrite !andb_true_iff, !same_iff.
  rewrite <- (error_wrong (sentence_of (fst p))), <- (error_wrong (sentence_of (snd p))).
  destruct (has_error (sentence_of (fst p))), (has_error (sentence_of (snd p))), e1, e2; cbn [Bool.eqb]; intuition congruence.
Qed.
Lemma cell_swap e1 e2 cs1 cs2 : nb (cell e1 e2) (looked cs1 cs2) = nb (cell e2 e1) (looked cs2 cs1).
Proof.
  rewrite !looked_all, nb_swap. apply nb_ext. intros [y x]. unfold on_sent, cell. cbn [fst snd].
  rewrite (same_sym (speaker_of x)), (same_sym (s_id (sentence_of x))). destruct (has_error _), (has_error _), e1, e2; reflexivity.
Qed.
Definition any_cell (p : sentence * sentence) : bool := same (s_id (fst p)) (s_id (snd p)).
Lemma cells_total l : nb (cell false false) l + nb (cell false true) l + nb (cell true false) l + nb (cell true true) l = nb any_cell l.
Proof.
  induction l as [|p l IH]; [reflexivity|]. unfold nb in *. cbn [filter]. unfold any_cell at 1, cell at 1 4 7 10.
  destruct (same _ _); cbn [andb]; [|exact IH].
  destruct (has_error (fst p)), (has_error (snd p)); cbn [Bool.eqb andb length]; lia.
Qed.
