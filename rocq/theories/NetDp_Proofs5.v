(** The distance function is only used on the words of the two networks. *)
From Coq Require Import List ZArith Arith Bool Lia.
From Verif Require Import Base Net_Model Net_Spec Net_Proofs1 Net_Proofs3 NetDp_Model NetDp_Spec NetDp_Proofs4.
Import ListNotations.
Local Open Scope res_scope.

Section Local.
Context {D : Type}.
Variables wwd wwd' : option D -> option D -> res Z.
Lemma rfold_ext {S I} (f g : S -> I -> res S) l : (forall s i, In i l -> f s i = g s i) -> forall s, rfold f l s = rfold g l s.
Proof.
  intros H. unfold rfold. assert (G : forall acc, fold_left (fun acc i => let* s := acc in f s i) l acc = fold_left (fun acc i => let* s := acc in g s i) l acc); [|intros; apply G].
  induction l as [|i l IH]; intros acc; [reflexivity|]. cbn [fold_left]. rewrite <- IH by (intros s j J; apply H; right; exact J). f_equal.
  destruct acc; cbn [rbind]; [apply H; left; reflexivity|reflexivity..].
Qed.
Lemma get_in l k x : get l k = Ok x -> In x l.
Proof. unfold get. destruct (nth_error l k) eqn:E; [|discriminate]. intros H. injection H as <-. exact (nth_error_In _ _ E). Qed.
Lemma fill_ext (A B : net D) xs ys T :
  (forall x y, In x xs -> In y ys -> wwd (n_data A x) (n_data B y) = wwd' (n_data A x) (n_data B y)) ->
  (forall x, In x xs -> wwd (n_data A x) None = wwd' (n_data A x) None) -> (forall y, In y ys -> wwd None (n_data B y) = wwd' None (n_data B y)) ->
  fill_table wwd A B xs ys T = fill_table wwd' A B xs ys T.
Proof.
  intros HS HA HB. unfold fill_table.
  rewrite (rfold_ext (margin_b wwd B ys) (margin_b wwd' B ys)).
  2:{ intros s b _. unfold margin_b. destruct (calc_insert s B ys 0 b); cbn [rbind]; try reflexivity. destruct (get ys b) eqn:G; cbn [rbind]; try reflexivity. rewrite HB by (eapply get_in, G). reflexivity. }
  destruct (rfold (margin_b wwd' B ys) _ _) as [T2| | |]; cbn [rbind]; try reflexivity.
  rewrite (rfold_ext (margin_a wwd A xs) (margin_a wwd' A xs)).
  2:{ intros s b _. unfold margin_a. destruct (calc_delete s A xs b 0); cbn [rbind]; try reflexivity. destruct (get xs b) eqn:G; cbn [rbind]; try reflexivity. rewrite HA by (eapply get_in, G). reflexivity. }
  destruct (rfold (margin_a wwd' A xs) _ _) as [T3| | |]; cbn [rbind]; try reflexivity.
  apply rfold_ext. intros s [a b] _. unfold internal. destruct (calc_insert s B ys a b); cbn [rbind]; try reflexivity. destruct (calc_delete s A xs a b); cbn [rbind]; try reflexivity.
  destruct (calc_substi s A B xs ys a b); cbn [rbind]; try reflexivity. destruct (get xs a) eqn:GX; cbn [rbind]; try reflexivity. destruct (get ys b) eqn:GY; cbn [rbind]; try reflexivity.
  rewrite HS by (eapply get_in; eassumption). rewrite HA by (eapply get_in; eassumption). rewrite HB by (eapply get_in; eassumption). reflexivity.
Qed.
End Local.

Section Main.
Context {D : Type}.
Variable wwd : option D -> option D -> res Z.
Variable equal : option D -> option D -> bool.
Variable is_null : option D -> bool.
Variable is_opt : option D -> bool.
Variable empty : D.
Variable w : option D -> option D -> Z.
Variable Wm : Z.
Variables NA NB : net D.
Hypothesis WA : wf_net NA.
Hypothesis WB : wf_net NB.
Hypothesis DA : no_null_data NA.
Hypothesis DB : no_null_data NB.
Hypothesis Hw : forall x y, x <> None \/ y <> None -> word_in NA x -> word_in NB y -> wwd x y = Ok (w x y) /\ (w x y <= Wm)%Z.
Hypothesis HWm : (0 <= Wm)%Z.
Hypothesis Hbig : (Wm * (Z.of_nat (n_arcs NA) + Z.of_nat (n_arcs NB) + 2) < BIG_END)%Z.
Hypothesis Hsize : (Z.of_nat (n_arcs NA) < MAX_MATRIX - 1 /\ Z.of_nat (n_arcs NB) < MAX_MATRIX - 1)%Z.

Let w' (x y : option D) : Z := Z.min (w x y) Wm.
Let wwd' (x y : option D) : res Z := match x, y with None, None => wwd x y | _, _ => Ok (w' x y) end.
Lemma w'_eq x y : x <> None \/ y <> None -> word_in NA x -> word_in NB y -> w' x y = w x y.
Proof. intros H IA IB. unfold w'. pose proof (proj2 (Hw x y H IA IB)). lia. Qed.
Lemma wwd'_eq x y : word_in NA x -> word_in NB y -> wwd x y = wwd' x y.
Proof.
  intros IA IB. unfold wwd'. destruct x as [a|], y as [b|]; try reflexivity; rewrite w'_eq; try assumption; try (left; congruence); try (right; congruence); apply Hw; try assumption;
    try (left; congruence); right; congruence.
Qed.
Lemma path_words (N : net D) xs : no_null_data N -> full_path N xs -> forall x, In x xs -> word_in N (n_data N x) /\ n_data N x <> None.
Proof.
  intros W F x I. unfold full_path in F. destruct (n_stop N) as [t|]; [|rewrite F in I; destruct I].
  induction F as [|u y ys v Hy Hp IH]; [destruct I|]. destruct I as [<-|I]; [split; [right; eauto|exact (W y u Hy)]|auto].
Qed.
Lemma cost_eq s : is_alignment NA NB s -> align_cost w' NA NB s = align_cost w NA NB s.
Proof.
  intros (F1 & F2 & F3). pose proof (path_words NA _ DA F1) as P1. pose proof (path_words NB _ DB F2) as P2. clear F1 F2. unfold align_cost.
  induction s as [|[x y] s IH]; [reflexivity|]. cbn [fold_right fst snd].
  assert (IHs : fold_right (fun p acc => (w' (word_of NA (fst p)) (word_of NB (snd p)) + acc)%Z) 0%Z s = fold_right (fun p acc => (w (word_of NA (fst p)) (word_of NB (snd p)) + acc)%Z) 0%Z s).
  { apply IH; [intros I; apply F3; right; exact I| |]; intros z I; [apply P1|apply P2]; unfold firsts, seconds; cbn [flat_map fst snd]; apply in_app_iff; right; exact I. }
  rewrite IHs. f_equal.
  assert (WX : word_in NA (word_of NA x) /\ (x <> None -> word_of NA x <> None)).
  { destruct x as [x|]; [destruct (P1 x) as [A B]; [left; reflexivity|auto]|split; [left; reflexivity|congruence]]. }
  assert (WY : word_in NB (word_of NB y) /\ (y <> None -> word_of NB y <> None)).
  { destruct y as [y|]; [destruct (P2 y) as [A B]; [unfold seconds; cbn [flat_map fst snd]; left; reflexivity|auto]|split; [left; reflexivity|congruence]]. }
  apply w'_eq; [|apply WX|apply WY]. destruct x as [x|]; [left; apply WX; congruence|]. destruct y as [y|]; [right; apply WY; congruence|]. exfalso. apply F3. left. reflexivity.
Qed.
Local Notation A := (add_head NA None).
Local Notation B := (add_head NB None).
Lemma head_words (N : net D) fuel xs : wf_net N -> S (n_nodes N) < fuel -> traverse_arcs Inorder fuel (add_head N None) = Ok xs -> forall x, In x xs -> word_in N (n_data (add_head N None) x).
Proof.
  intros W F E x I. destruct (head_arcs N W fuel F) as (xs' & X1 & X2 & X3 & _). rewrite E in X1. injection X1 as <-.
  destruct (Nat.eq_dec x (n_arcs N)) as [->|NE]; [left; cbn; apply fupd_same|]. rewrite head_data by exact NE. right. apply X3 in I. destruct I as (u & I). destruct (head_live N W x u I NE) as (v & J). eauto.
Qed.
Lemma dpalign_words nulls fuel T : S (n_nodes NA) < fuel -> S (n_nodes NB) < fuel ->
  dpalign wwd equal is_null is_opt empty nulls fuel T NA NB = dpalign wwd' equal is_null is_opt empty nulls fuel T NA NB.
Proof.
  intros HfA HfB. unfold dpalign. destruct (_ || _); [reflexivity|]. destruct (traverse_arcs Inorder fuel A) as [xs| | |] eqn:EX; cbn [rbind]; try reflexivity.
  destruct (traverse_arcs Inorder fuel B) as [ys| | |] eqn:EY; cbn [rbind]; try reflexivity.
  pose proof (head_words NA fuel xs WA HfA EX) as HX. pose proof (head_words NB fuel ys WB HfB EY) as HY.
  rewrite (fill_ext wwd wwd' A B xs ys T); [reflexivity|..]; intros; apply wwd'_eq; auto; left; reflexivity.
Qed.
Theorem dpalign_local : forall nulls fuel T, S (n_nodes NA) < fuel -> S (n_nodes NB) < fuel ->
  exists s, dpalign wwd equal is_null is_opt empty nulls fuel T NA NB =
      Ok (A, B, (Some (align_cost w NA NB s), map (entry_of equal is_opt empty NA NB) (filter (shown is_null nulls NA NB) s))) /\
    is_alignment NA NB s /\ forall s', is_alignment NA NB s' -> (align_cost w NA NB s <= align_cost w NA NB s')%Z.
Proof.
  intros nulls fuel T HfA HfB.
  assert (Hw' : forall x y, x <> None \/ y <> None -> wwd' x y = Ok (w' x y)) by (intros [x|] [y|] [H|H]; try congruence; reflexivity).
  assert (Hle' : forall x y, (w' x y <= Wm)%Z) by (intros; unfold w'; lia).
  destruct (dpalign_ok wwd' equal is_null is_opt empty w' Wm NA NB WA WB DA DB Hw' HWm Hle' Hbig Hsize nulls fuel T HfA HfB) as (s & E & Hs & Hmin).
  exists s. rewrite dpalign_words by assumption. rewrite <- (cost_eq s Hs). split; [exact E|]. split; [exact Hs|]. intros s' Hs'. rewrite <- (cost_eq s' Hs'). apply Hmin, Hs'.
Qed.
End Main.
