(** Back to the networks that were given. *)
From Coq Require Import List ZArith Arith Bool Lia.
From Verif Require Import Base Net_Model Net_Spec Net_Proofs1 Net_Proofs2 NetDp_Model NetDp_Spec NetDp_Proofs1 NetDp_Proofs2 NetDp_Proofs3.
Import ListNotations.
Local Open Scope res_scope.

(** One network with its null head. *)
Section Head.
Context {D : Type}.
Variable N : net D.
Hypothesis W : wf_net N.
Local Notation A := (add_head N None).

Lemma head_arcs : forall fuel, S (n_nodes N) < fuel -> exists xs, traverse_arcs Inorder fuel A = Ok xs /\ NoDup xs /\
  (forall x, In x xs <-> exists u, In x (n_out A u)) /\ arcs_ordered A xs /\ (exists tl, xs = n_arcs N :: tl) /\
  length xs <= S (n_arcs N).
Proof.
  intros fuel Hf. pose proof (head_wf N None W) as WA. destruct (traverse_arcs_inorder A WA fuel) as (xs & H1 & H2 & H3 & H4 & (tl & H5)); [exact Hf|].
  exists xs. split; [exact H1|]. split; [exact H2|]. split; [exact H3|]. split; [exact H4|]. split.
  - exists tl. rewrite H5. change (n_start A) with (n_start N). rewrite head_out_s. reflexivity.
  - apply bounded_length; [exact H2|]. intros x Hx. apply H3 in Hx. destruct Hx as (u & Hx). apply (wf_out A WA x u Hx).
Qed.
Lemma head_out : n_out A (n_start A) = [n_arcs N].
Proof. change (n_start A) with (n_start N). apply head_out_s. Qed.
Lemma head_stop_some : exists t, n_stop A = Some t.
Proof. rewrite head_stop. destruct (n_stop N); eauto. Qed.
Lemma head_data : forall x, x <> n_arcs N -> n_data A x = n_data N x.
Proof. intros x H. cbn. apply fupd_other. exact H. Qed.
Lemma head_live : forall x u, In x (n_out A u) -> x <> n_arcs N -> exists v, In x (n_out N v).
Proof.
  intros x u H Hx. cbn in H. unfold fupd in H. destruct (u =? n_start N).
  - destruct H as [H|[]]. congruence.
  - destruct (u =? n_nodes N); [|eauto]. rewrite add_arcs_nil in H by apply (wf_nd_out N W). eauto.
Qed.
Lemma head_full : forall t zs, n_stop A = Some t -> (full_path N zs <-> npath A (n_start A) (n_arcs N :: zs) t).
Proof.
  intros t zs Ht. pose proof Ht as Ht'. rewrite head_stop in Ht'. unfold full_path. destruct (n_stop N) as [t0|] eqn:E.
  - injection Ht' as <-. rewrite (head_paths N None W t0 t0) by auto. split; [intros H; exists zs; auto|].
    intros (xs & Eq & H). injection Eq as ->. exact H.
  - injection Ht' as <-. rewrite (head_paths N None W (n_start N) (n_nodes N)) by auto.
    pose proof (wf_stop N W) as Hs. rewrite E in Hs. split.
    + intros ->. exists []. split; [reflexivity|constructor].
    + intros (xs & Eq & H). injection Eq as ->. destruct xs as [|x xs]; [reflexivity|]. apply npath_cons_inv in H. rewrite Hs in H. destruct H as [[] _].
Qed.
End Head.

Section Main.
Context {D : Type}.
Variable wwd : option D -> option D -> res Z.
Variable equal : option D -> option D -> bool.
Variable is_null : option D -> bool.
Variable is_opt : option D -> bool.
Variable empty : D.
Variable w : option D -> option D -> Z.
Variable Wm : Z.
Variables NA NB : net D.
Hypothesis WA : wf_net NA.
Hypothesis WB : wf_net NB.
Hypothesis DA : no_null_data NA.
Hypothesis DB : no_null_data NB.
Hypothesis Hw : forall x y, x <> None \/ y <> None -> wwd x y = Ok (w x y).
Hypothesis HWm : (0 <= Wm)%Z.
Hypothesis Hle : forall x y, (w x y <= Wm)%Z.
Hypothesis Hbig : (Wm * (Z.of_nat (n_arcs NA) + Z.of_nat (n_arcs NB) + 2) < BIG_END)%Z.
Hypothesis Hsize : (Z.of_nat (n_arcs NA) < MAX_MATRIX - 1 /\ Z.of_nat (n_arcs NB) < MAX_MATRIX - 1)%Z.

Local Notation A := (add_head NA None).
Local Notation B := (add_head NB None).

Theorem dpalign_ok : forall nulls fuel T, S (n_nodes NA) < fuel -> S (n_nodes NB) < fuel ->
  exists s, dpalign wwd equal is_null is_opt empty nulls fuel T NA NB =
      Ok (A, B, (Some (align_cost w NA NB s), map (entry_of equal is_opt empty NA NB) (filter (shown is_null nulls NA NB) s))) /\
    is_alignment NA NB s /\ forall s', is_alignment NA NB s' -> (align_cost w NA NB s <= align_cost w NA NB s')%Z.
Proof.
  intros nulls fuel T HfA HfB.
  destruct (head_arcs NA WA fuel HfA) as (xs & X1 & X2 & X3 & X4 & X5 & X6).
  destruct (head_arcs NB WB fuel HfB) as (ys & Y1 & Y2 & Y3 & Y4 & Y5 & Y6).
  destruct (head_stop_some NA) as (sa & SA). destruct (head_stop_some NB) as (sb & SB).
  pose proof (head_wf NA None WA) as WA'. pose proof (head_wf NB None WB) as WB'.
  assert (DA' : forall x, In x xs -> x <> n_arcs NA -> n_data A x <> None).
  { intros x Hx Hn. rewrite head_data by exact Hn. apply X3 in Hx. destruct Hx as (u & Hx). destruct (head_live NA WA x u Hx Hn) as (v & Hv). apply (DA x v Hv). }
  assert (DB' : forall x, In x ys -> x <> n_arcs NB -> n_data B x <> None).
  { intros x Hx Hn. rewrite head_data by exact Hn. apply Y3 in Hx. destruct Hx as (u & Hx). destruct (head_live NB WB x u Hx Hn) as (v & Hv). apply (DB x v Hv). }
  assert (Hbig' : (Wm * (Z.of_nat (length xs) + Z.of_nat (length ys)) < BIG_END)%Z) by nia.
  pose proof (extract_ok equal is_null is_opt empty w Wm A B (n_arcs NA) (n_arcs NB) xs ys
    WA' (head_out NA) X2 X3 X4 X5 WB' (head_out NB) Y2 Y3 Y4 Y5 HWm Hle Hbig' nulls sa sb SA SB T) as (a & b & s & E & Hl & HR & Hmin).
  pose proof (fill_table_ok wwd w A B (n_arcs NA) (n_arcs NB) xs ys WA' X2 X3 X4 X5 WB' Y2 Y3 Y4 Y5 Hw DA' DB' T) as ET.
  set (conv := fun e : item => (option_map (arcat xs) (fst e), option_map (arcat ys) (snd e))).
  destruct (R_chain _ _ _ _ _ _ _ _ _ _ _ HR) as (CA & CB & Hnn & _).
  destruct (chain_path A (n_arcs NA) xs WA' (head_out NA) X3 X5 a (lefts s) CA) as (_ & PA & FA).
  destruct (chain_path B (n_arcs NB) ys WB' (head_out NB) Y3 Y5 b (rights s) CB) as (_ & PB & FB).
  assert (NotA : forall k, 0 < k < length xs -> arcat xs k <> n_arcs NA).
  { intros k Hk Ek. rewrite <- (arcat_0 (n_arcs NA) xs X5) in Ek. pose proof (index_arcat xs X2 k ltac:(lia)) as I1. rewrite Ek, index_arcat in I1 by (try exact X2; lia). lia. }
  assert (NotB : forall k, 0 < k < length ys -> arcat ys k <> n_arcs NB).
  { intros k Hk Ek. rewrite <- (arcat_0 (n_arcs NB) ys Y5) in Ek. pose proof (index_arcat ys Y2 k ltac:(lia)) as I1. rewrite Ek, index_arcat in I1 by (try exact Y2; lia). lia. }
  (* items of scripts have valid numbers *)
  assert (Val : forall s0, Forall (fun k => 0 < k < length xs) (lefts s0) -> Forall (fun k => 0 < k < length ys) (rights s0) ->
     forall e, In e s0 -> (forall k, fst e = Some k -> 0 < k < length xs) /\ (forall k, snd e = Some k -> 0 < k < length ys)).
  { intros s0 F1 F2 e He. rewrite Forall_forall in F1, F2. split; intros k Ek.
    - apply F1. unfold lefts. apply in_flat_map. exists e. split; [exact He|]. rewrite Ek. now left.
    - apply F2. unfold rights. apply in_flat_map. exists e. split; [exact He|]. rewrite Ek. now left. }
  assert (WordA : forall k, 0 < k < length xs -> n_data A (arcat xs k) = n_data NA (arcat xs k)) by (intros k Hk; apply head_data, NotA, Hk).
  assert (WordB : forall k, 0 < k < length ys -> n_data B (arcat ys k) = n_data NB (arcat ys k)) by (intros k Hk; apply head_data, NotB, Hk).
  assert (Cost : forall s0, Forall (fun k => 0 < k < length xs) (lefts s0) -> Forall (fun k => 0 < k < length ys) (rights s0) -> ~ In (None, None) s0 ->
     cost (wd w A xs) (wi w B ys) (ws w A B xs ys) s0 = align_cost w NA NB (map conv s0)).
  { intros s0 F1 F2 Fn. pose proof (Val s0 F1 F2) as V. clear F1 F2. induction s0 as [|e s0 IH]; [reflexivity|]. cbn [cost align_cost map fold_right].
    rewrite IH; [|intros Hc; apply Fn; now right|intros e' He'; apply V; now right].
    f_equal. destruct (V e (or_introl eq_refl)) as [V1 V2]. unfold conv. destruct e as [[x|] [y|]]; cbn in V1, V2 |- *; unfold wd, wi, ws.
    - rewrite WordA by (apply V1; reflexivity). rewrite WordB by (apply V2; reflexivity). reflexivity.
    - rewrite WordA by (apply V1; reflexivity). reflexivity.
    - rewrite WordB by (apply V2; reflexivity). reflexivity.
    - destruct Fn. now left. }
  assert (Firsts : forall s0, firsts (map conv s0) = map (arcat xs) (lefts s0)).
  { induction s0 as [|[[x|] y] s0 IH]; cbn; [reflexivity| |exact IH]. f_equal. exact IH. }
  assert (Seconds : forall s0, seconds (map conv s0) = map (arcat ys) (rights s0)).
  { induction s0 as [|[x [y|]] s0 IH]; cbn; [reflexivity| |exact IH]. f_equal. exact IH. }
  assert (ToEnd : forall (M : net D) t x, wf_net M -> In x (n_in M t) -> n_to M x = t) by (intros M t x WM Hx; apply (wf_in M WM x t Hx)).
  destruct Hl as (La & Lb & Lia & Lib).
  exists (map conv s). split; [|split].
  - unfold dpalign. cbn [n_arcs add_head insert_after].
    assert (S1 : ((MAX_MATRIX - 1 <? Z.of_nat (S (n_arcs NA)))%Z || (MAX_MATRIX - 1 <? Z.of_nat (S (n_arcs NB)))%Z)%bool = false).
    { apply orb_false_intro; apply Z.ltb_ge; lia. }
    rewrite S1, X1. cbn [rbind]. rewrite Y1. cbn [rbind]. rewrite ET. cbn [rbind]. rewrite E. cbn [rbind].
    rewrite (Cost s FA FB Hnn).
    enough (EE : map (entry1 equal is_opt empty A B xs ys) (filter (shown1 is_null A B xs ys nulls) s) =
        map (entry_of equal is_opt empty NA NB) (filter (shown is_null nulls NA NB) (map conv s))) by (rewrite EE; reflexivity).
    pose proof (Val s FA FB) as V. clear - V Hnn WordA WordB.
    induction s as [|e s IH]; [reflexivity|]. cbn [filter map].
    assert (IH' : map (entry1 equal is_opt empty A B xs ys) (filter (shown1 is_null A B xs ys nulls) s) =
        map (entry_of equal is_opt empty NA NB) (filter (shown is_null nulls NA NB) (map conv s))).
    { apply IH; [intros Hc; apply Hnn; now right|intros e' He'; apply V; now right]. }
    destruct (V e (or_introl eq_refl)) as [V1 V2].
    assert (Esh : shown1 is_null A B xs ys nulls e = shown is_null nulls NA NB (conv e) /\
                  entry1 equal is_opt empty A B xs ys e = entry_of equal is_opt empty NA NB (conv e)).
    { unfold conv. destruct e as [[x|] [y|]]; cbn [fst snd] in V1, V2; unfold shown1, shown, entry1, entry_of, word_of; cbn [fst snd option_map].
      - rewrite WordA by (apply V1; reflexivity). rewrite WordB by (apply V2; reflexivity). auto.
      - rewrite WordA by (apply V1; reflexivity). auto.
      - rewrite WordB by (apply V2; reflexivity). auto.
      - destruct Hnn. now left. }
    destruct Esh as [Esh Een]. rewrite Esh. destruct (shown is_null nulls NA NB (conv e)); [|exact IH']. cbn [map]. rewrite Een, IH'. reflexivity.
  - split; [|split].
    + apply (head_full NA WA sa); [exact SA|]. rewrite Firsts. rewrite <- (ToEnd A sa _ WA' Lia). exact PA.
    + apply (head_full NB WB sb); [exact SB|]. rewrite Seconds. rewrite <- (ToEnd B sb _ WB' Lib). exact PB.
    + intros Hc. apply in_map_iff in Hc. destruct Hc as ([[x|] [y|]] & He & Hin); try discriminate. contradiction.
  - intros s' (F1 & F2 & F3). set (vnoc := fun e : option nat * option nat => (option_map (fun z => index_of z xs) (fst e), option_map (fun z => index_of z ys) (snd e))).
    apply (head_full NA WA sa _ SA) in F1. apply (head_full NB WB sb _ SB) in F2.
    destruct (path_chain A (n_arcs NA) xs WA' (head_out NA) X2 X3 X5 _ _ F1) as (a' & C1 & I1 & M1).
    destruct (path_chain B (n_arcs NB) ys WB' (head_out NB) Y2 Y3 Y5 _ _ F2) as (b' & C2 & I2 & M2).
    assert (L1 : lefts (map vnoc s') = map (fun z => index_of z xs) (firsts s')).
    { clear. induction s' as [|[[x|] y] s' IH]; cbn; [reflexivity| |exact IH]. f_equal. exact IH. }
    assert (L2 : rights (map vnoc s') = map (fun z => index_of z ys) (seconds s')).
    { clear. induction s' as [|[x [y|]] s' IH]; cbn; [reflexivity| |exact IH]. f_equal. exact IH. }
    rewrite <- L1 in C1. rewrite <- L2 in C2.
    assert (Nn : ~ In (None, None) (map vnoc s')).
    { intros Hc. apply in_map_iff in Hc. destruct Hc as ([[x|] [y|]] & He & Hin); try discriminate. contradiction. }
    destruct (chain_path A (n_arcs NA) xs WA' (head_out NA) X3 X5 a' _ C1) as (La' & _ & G1).
    destruct (chain_path B (n_arcs NB) ys WB' (head_out NB) Y3 Y5 b' _ C2) as (Lb' & _ & G2).
    pose proof (chain_R (length xs) (length ys) (preds A xs) (preds B ys) (wd w A xs) (wi w B ys) (ws w A B xs ys) (map vnoc s') a' b' C1 C2 Nn) as HR'.
    assert (Back : map conv (map vnoc s') = s').
    { rewrite map_map. rewrite <- (map_id s') at 2. apply map_ext_in. intros e He. unfold conv, vnoc. destruct e as [x y]. cbn.
      f_equal.
      - destruct x as [x|]; [|reflexivity]. cbn. f_equal. apply arcat_index. apply M1. apply in_flat_map. exists (Some x, y). split; [exact He|now left].
      - destruct y as [y|]; [|reflexivity]. cbn. f_equal. apply arcat_index. apply M2. apply in_flat_map. exists (x, Some y). split; [exact He|now left]. }
    rewrite <- Back. rewrite <- (Cost (map vnoc s') G1 G2 Nn). rewrite <- (Cost s FA FB Hnn).
    apply (Hmin a' b' _ (map vnoc s')); [|exact HR']. split; [exact La'|]. split; [exact Lb'|]. split; assumption.
Qed.
End Main.
