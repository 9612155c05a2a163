(** The paths from the first segment to the last one. *)
From Coq Require Import String List ZArith NArith Arith Bool Lia.
From Verif Require Import Base Store_Model Graph_Model Links_Model Links_Spec Ctm_Model Ctm_Spec Ctm_Proofs1 Ctm_Proofs2 Ctm_Proofs3 Ctm_Proofs4 Ctm_Proofs5 Ctm_Proofs6.
Import ListNotations.
Local Open Scope res_scope.

Lemma alts_at_app : forall A (l m : list (list A)) n, alts_at n (l ++ m) = alts_at n l ++ alts_at (n + length (concat l)) m.
Proof.
  induction l as [|a l IH]; intros m n; cbn [app alts_at concat]; [rewrite Nat.add_0_r; reflexivity|].
  rewrite IH, app_length, Nat.add_assoc. reflexivity.
Qed.
Lemma alts_at_removelast : forall A (l : list (list A)) n, removelast (alts_at n l) = alts_at n (removelast l).
Proof.
  intros A l n. destruct l as [|a l _] using rev_ind; [reflexivity|]. rewrite alts_at_snoc, !removelast_last. reflexivity.
Qed.
Lemma last_concat : forall (ps : list (list nat)) p d, p <> [] -> last (concat (ps ++ [p])) d = last p 0.
Proof.
  intros ps p d H. rewrite concat_app. cbn [concat]. rewrite app_nil_r. destruct p as [|x p]; [congruence|].
  rewrite last_app_cons, last_cons. reflexivity.
Qed.
Lemma forall2_snoc : forall A B (R : A -> B -> Prop) l x (l' : list B), Forall2 R l (l' ++ [x]) ->
  exists k y, l = k ++ [y] /\ Forall2 R k l' /\ R y x.
Proof.
  intros A B R l x l' H. apply Forall2_app_inv_r in H. destruct H as (k & y & H1 & H2 & ->). inversion H2 as [|z ? ? ? Hz H3]; subst. inversion H3; subst.
  exists k, z. auto.
Qed.

Section Spell.
Variable ms : str -> Z.
Lemma spell : forall d i j rest st s2 ws, between ms (d ++ [i]) st -> Forall ok_item (d ++ [i]) -> alts_of i = alts_of j ++ rest ->
  nth_error (c_segs st) (length (c_segs st) - 1) = Some s2 -> cs_last s2 = lasts (alts_at (length (entries d)) (alts_of j)) ->
  spells st ws <-> says (d ++ [j]) ws.
Proof.
  intros d i j rest st s2 ws B Hok Ei Hs2 El.
  pose proof (layout_ne _ Hok) as Hne. pose proof (layout_nodup (d ++ [i])) as Hd.
  assert (He : forall x y, edge (c_links st) x y <-> comes_after (layout (d ++ [i])) x y).
  { intros x y. rewrite (bt_links _ _ _ B), linked_edge, pairs_in. split; [intros [(A & r & _ & [] & _)|H]; exact H|auto]. }
  assert (EE : entries (d ++ [i]) = [] ++ entries (d ++ [j]) ++ concat rest).
  { rewrite !entries_app. unfold entries. cbn. rewrite !app_nil_r, Ei, concat_app, app_assoc. reflexivity. }
  assert (LI : layout (d ++ [i]) = layout d ++ [alts_at (length (entries d)) (alts_of j) ++ alts_at (length (entries d) + length (concat (alts_of j))) rest]).
  { rewrite layout_snoc, Ei, alts_at_app. reflexivity. }
  assert (LJ : layout (d ++ [j]) = layout d ++ [alts_at (length (entries d)) (alts_of j)]) by apply layout_snoc.
  set (n := length (entries d)) in *. set (P := alts_at n (alts_of j)) in *. set (R := alts_at (n + length (concat (alts_of j))) rest) in *.
  assert (L0 : exists A0 L0, layout (d ++ [i]) = A0 :: L0) by (rewrite LI; destruct (layout d); eexists; eexists; reflexivity).
  destruct L0 as (A0 & L0 & EL).
  assert (HF : exists s1, hd_error (c_segs st) = Some s1 /\ cs_first s1 = heads A0).
  { pose proof (so_first _ _ _ (bt_segs _ _ _ B)) as F. rewrite EL in F. destruct (c_segs st) as [|s1 r]; [discriminate|]. injection F as F _. exists s1. auto. }
  destruct HF as (s1 & Hs1 & Ef).
  assert (LastL : last (layout (d ++ [i])) [] = P ++ R) by (rewrite LI; apply last_last).
  split.
  - intros (s1' & s2' & a & l & E1 & E2 & Ha & HW & HE & HT). rewrite Hs1 in E1. injection E1 as <-. rewrite Hs2 in E2. injection E2 as <-.
    rewrite Ef in Ha. rewrite El in HE.
    assert (HE' : In (last l a) (lasts (last (layout (d ++ [i])) []))).
    { rewrite LastL. unfold lasts. rewrite map_app, in_app_iff. left. exact HE. }
    destruct (walk_picks _ Hne Hd _ He L0 [] A0 a l EL Ha HW HE') as (picks & HP & EP).
    rewrite <- EL, LI in HP. apply forall2_snoc in HP. destruct HP as (ps & p & -> & HP & Hp).
    assert (Hi : In (P ++ R) (layout (d ++ [i]))) by (rewrite LI; apply in_app_iff; right; left; reflexivity).
    assert (Np : p <> []) by (eapply ne_alt; eauto).
    assert (Ea : last l a = last p 0). { rewrite <- (last_cons l a 0), EP. apply last_concat. exact Np. }
    rewrite Ea in HE. unfold lasts in HE. apply in_map_iff in HE. destruct HE as (p' & Ep' & Hp').
    assert (Hp'' : In p' (P ++ R)) by (apply in_app_iff; auto).
    assert (Np' : p' <> []) by (eapply ne_alt; eauto).
    assert (p = p').
    { pose proof (last_split p Np) as S1. pose proof (last_split p' Np') as S2. rewrite Ep' in S2.
      destruct (place_unique _ Hd (P ++ R) p p' _ [] _ [] _ Hi Hp Hp'' S1 S2) as (X & _). exact X. }
    subst p'.
    assert (HP2 : Forall2 (fun p A => In p A) (ps ++ [p]) (count_items 0 (d ++ [j]))).
    { change (count_items 0 (d ++ [j])) with (layout (d ++ [j])). rewrite LJ. apply Forall2_app; [exact HP|]. constructor; [exact Hp'|constructor]. }
    destruct (picks_say (d ++ [j]) [] (concat rest) 0 _ eq_refl HP2) as (ws' & Hw & ET).
    rewrite (tok_texts _ _ _ (bt_toks _ _ _ B)), EE, EP, ET in HT. apply some_inj in HT. subst ws'. exact Hw.
  - intros Hw. destruct (say_picks _ _ [] (concat rest) 0 Hw eq_refl) as (picks & HP & ET).
    change (count_items 0 (d ++ [j])) with (layout (d ++ [j])) in HP. rewrite LJ in HP. apply forall2_snoc in HP. destruct HP as (ps & p & -> & HP & Hp).
    assert (HP2 : Forall2 (fun p A => In p A) (ps ++ [p]) (A0 :: L0)).
    { rewrite <- EL, LI. apply Forall2_app; [exact HP|]. constructor; [apply in_app_iff; left; exact Hp|constructor]. }
    destruct (picks_walk _ Hne _ He L0 [] A0 _ EL HP2) as (a & l & EC & Ha & HW & _).
    assert (Hi : In (P ++ R) (layout (d ++ [i]))) by (rewrite LI; apply in_app_iff; right; left; reflexivity).
    assert (Np : p <> []) by (eapply ne_alt; [exact Hne|exact Hi|apply in_app_iff; left; exact Hp]).
    exists s1, s2, a, l. split; [exact Hs1|]. split; [exact Hs2|]. split; [rewrite Ef; exact Ha|]. split; [exact HW|]. split.
    + rewrite El, <- (last_cons l a 0), <- EC, last_concat by exact Np. apply in_map with (f := fun a => last a 0). exact Hp.
    + rewrite (tok_texts _ _ _ (bt_toks _ _ _ B)), EE, <- EC. exact ET.
Qed.
End Spell.
