(** The whole report. *)
From Coq Require Import String Ascii.
From Coq Require Import List ZArith NArith Arith Bool Lia Permutation.
From Verif Require Import Base Text_Model Text_Spec Sgml_Model Sgml_Spec Sgml_Proofs1 Sgml_Proofs2 Sgml_Proofs3 Sgml_Proofs4 Sgml_Proofs5 Sgml_Proofs6.
From Verif Require Import Arep_Model Arep_Spec Arep_Proofs1 Arep_Proofs2 Arep_Proofs3.
Import ListNotations.
Local Open Scope res_scope.
Local Open Scope list_scope.

(** ** Auxiliary values *)
Definition fr (c : cell) : bool := some_tok timed (c_ref c).
Definition fh (c : cell) : bool := some_tok timed (hyp_of c).
Definition cr (c : cell) : bool := some_tok sure (c_ref c).
Definition ch (c : cell) : bool := some_tok sure (hyp_of c).
Definition join (x : auxs) (cs : list cell) : auxs :=
  {| x_rt := x_rt x || existsb fr cs; x_ht := x_ht x || existsb fh cs; x_rc := x_rc x || existsb cr cs; x_hc := x_hc x || existsb ch cs |}.
Lemma join_app x a b : join (join x a) b = join x (a ++ b).
Proof. unfold join. cbn. rewrite !existsb_app, !orb_assoc. reflexivity. Qed.
Lemma join_nil x : join x [] = x.
Proof. destruct x as [a b c d]. unfold join. cbn. rewrite !orb_false_r. reflexivity. Qed.
Lemma aux_cells l : forall x, fold_left aux_cell l x = join x l.
Proof.
  induction l as [|c l IH]; intros x; [symmetry; apply join_nil|]. cbn [fold_left]. rewrite IH. unfold join, aux_cell, fr, fh, cr, ch, has, some_tok. cbn [existsb x_rt x_ht x_rc x_hc].
  rewrite <- !orb_assoc. reflexivity.
Qed.
Lemma aux_segs l : forall x, fold_left aux_seg l x = join x (flat_map sg_cells l).
Proof. induction l as [|g l IH]; intros x; [symmetry; apply join_nil|]. cbn [fold_left flat_map]. rewrite IH. unfold aux_seg. rewrite aux_cells, join_app. reflexivity. Qed.
Lemma auxs_ok ks : auxs_of ks = join {| x_rt := false; x_ht := false; x_rc := false; x_hc := false |} (flat_map sg_cells (flat_map k_segs ks)).
Proof.
  unfold auxs_of. generalize {| x_rt := false; x_ht := false; x_rc := false; x_hc := false |}. induction ks as [|k ks IH]; intros x; [symmetry; apply join_nil|].
  cbn [fold_left flat_map]. rewrite IH. unfold aux_spk. rewrite aux_segs, join_app, <- flat_map_app. reflexivity.
Qed.
Lemma existsb_perm {A} (f : A -> bool) l m : Permutation l m -> existsb f l = existsb f m.
Proof. intros H. induction H; cbn; [reflexivity|congruence|rewrite !orb_assoc; f_equal; apply orb_comm|congruence]. Qed.
Lemma join_perm x l m : Permutation l m -> join x l = join x m.
Proof. intros H. unfold join. rewrite (existsb_perm fr _ _ H), (existsb_perm fh _ _ H), (existsb_perm cr _ _ H), (existsb_perm ch _ _ H). reflexivity. Qed.
Lemma flat_map_perm {A B} (f : A -> list B) l m : Permutation l m -> Permutation (flat_map f l) (flat_map f m).
Proof.
  intros H. induction H; cbn [flat_map]; [constructor|apply Permutation_app_head; assumption| |eapply perm_trans; eassumption].
  rewrite !app_assoc. apply Permutation_app_tail. apply Permutation_app_comm.
Qed.
Definition fl0 : auxs := {| x_rt := false; x_ht := false; x_rc := false; x_hc := false |}.
Lemma ex_false {A} (f : A -> bool) l a : existsb f l = false -> In a l -> f a = false.
Proof. intros E I. destruct (f a) eqn:F; [|reflexivity]. assert (existsb f l = true) by (apply existsb_exists; eauto). congruence. Qed.
Lemma good_ok e o cs c : In c cs -> cell_ok e o c -> good e o (join fl0 cs) c.
Proof.
  intros I H. split; [exact H|]. unfold announced, join. cbn [x_rt x_ht x_rc x_hc fl0 orb].
  split; split; intros E; [exact (ex_false fr cs c E I)|exact (ex_false cr cs c E I)|exact (ex_false fh cs c E I)|exact (ex_false ch cs c E I)].
Qed.

(** ** Names *)
Lemma text_tail e s : text e s -> forall d n, s = d ++ 47%N :: n -> text e n.
Proof.
  revert s. apply (text_ind e (fun s => forall d n, s = d ++ 47%N :: n -> text e n)).
  - intros d n E. destruct d; discriminate.
  - intros b r _ HT IH d n E. destruct d as [|a d]; injection E as -> E; [rewrite <- E; exact HT|eapply IH; exact E].
  - intros c r _ _ F _ IH. induction F as [|b c Hb F IHc]; intros d n E; cbn [app] in E; [eapply IH; exact E|].
    destruct d as [|a d]; injection E as E1 E; [lia|]. eapply IHc. exact E.
  - intros b r Hb _ _ IH d n E. destruct d as [|a d]; injection E as E1 E; [lia|]. eapply IH. exact E.
Qed.
Lemma base_field e p n : field e p -> is_base p n -> field e n.
Proof.
  intros H [_ [->|(d & E)]]; [exact H|]. destruct H as (HT & N1 & N2). split; [exact (text_tail e p HT d n E)|].
  split; intro I; [apply N1|apply N2]; rewrite E; apply in_or_app; right; right; exact I.
Qed.
Lemma names_field e o l ref hyp : Forall (speech_ok e o) l -> hyp_files_ok e l -> names l ref hyp -> field e ref /\ field e hyp.
Proof.
  intros HL HH [(a & p & b & x & g & y & E1 & E2 & E3 & E4 & _)|(_ & E5 & a & p & E6 & E7)]; rewrite Forall_forall in HL.
  - split; [rewrite E4; apply (HL p); rewrite E1; apply in_or_app; right; left; reflexivity|].
    unfold first_hyp in E3. destruct (sg_cells g) as [|c cs] eqn:EC; [discriminate|]. destruct (hyp_of c) as [t|] eqn:ET; [|discriminate]. injection E3 as <-.
    apply (HH c t); [|exact ET]. unfold all_cells, all_segs. apply in_flat_map. exists g. split; [|rewrite EC; left; reflexivity].
    apply in_flat_map. exists p. split; [rewrite E1; apply in_or_app; right; left; reflexivity|]. rewrite E2. apply in_or_app. right. left. reflexivity.
  - split; [rewrite E7; apply (HL p); rewrite E6; apply in_or_app; right; left; reflexivity|]. rewrite E5. apply field_plain. reflexivity.
Qed.

Lemma speech_scored e o p : speech_ok e o p -> Forall scored (sp_segs p).
Proof.
  intros (_ & _ & _ & H). eapply Forall_impl; [|exact H]. intros g (_ & _ & _ & _ & _ & HC). unfold scored. eapply Forall_impl; [|exact HC].
  intros c [_ Hc]. destruct (c_eval c); [discriminate|contradiction].
Qed.
Definition first_group : group := {| g_spks := []; g_cur := None; g_ref := []; g_hyp := []; g_set := false |}.
Lemma Inv_first : Inv [] (g_spks first_group).
Proof. unfold Inv. cbn. repeat split; try constructor; intros ? []. Qed.
Lemma flat_pairs (l : list spk) : flat_map snd (map pair_of l) = flat_map k_segs l.
Proof. induction l as [|k l IH]; [reflexivity|]. cbn [map flat_map]. rewrite IH. reflexivity. Qed.

Lemma report_read_all S e o maxn systm date p l : sorts S -> 1 <= maxn -> field e systm -> field e date ->
  Forall (speech_ok e o) (p :: l) -> hyp_files_ok e (p :: l) -> sp_segs p <> [] ->
  exists t gs ref hyp title,
    system_text S o systm date (p :: l) = Ok t /\
    load e maxn t = Ok [report_of o title date ref hyp (sp_labels p) (all_cells (p :: l)) gs] /\
    grouped (all_segs (p :: l)) gs /\ names (p :: l) ref hyp /\ is_base systm title /\
    (Forall one_speaker (p :: l) -> forall n ss, In (n, ss) gs -> in_order ss).
Proof.
  intros HS Hm Hsys Hdate HL HH NE. set (L := p :: l) in *.
  assert (SC : Forall (fun p => Forall scored (sp_segs p)) L) by (eapply Forall_impl; [|exact HL]; intros; eapply speech_scored; eassumption).
  destruct (speeches_ok S HS L first_group [] SC Inv_first I) as (s' & E1 & I1); [right; exact NE|]. cbn [app] in I1.
  pose proof (grouped_ok S HS _ _ I1) as GR. set (ks := S spk k_seq (g_spks s')) in *.
  assert (NM : names L (g_ref s') (g_hyp s')) by (apply (names_ok S L first_group); try assumption; try reflexivity; discriminate).
  destruct (names_field e o L _ _ HL HH NM) as [F1 F2].
  pose proof (base_name_ok systm) as BN. pose proof (base_field e systm _ Hsys BN) as F3.
  pose proof GR as (ND & PM & GM & _). rewrite map_map in ND. rewrite flat_pairs in PM.
  assert (AX : auxs_of ks = join fl0 (all_cells L)).
  { rewrite auxs_ok. apply join_perm. unfold all_cells. apply flat_map_perm. apply Permutation_sym. exact PM. }
  assert (SG : forall g, In g (all_segs L) -> seg_ok e o g).
  { intros g Ig. apply in_flat_map in Ig as (q & Iq & Ig). rewrite Forall_forall in HL. destruct (HL q Iq) as (_ & _ & _ & H). rewrite Forall_forall in H. apply H, Ig. }
  assert (HK : Forall (fun k => field e (k_name k) /\ Forall (gseg e o (join fl0 (all_cells L))) (k_segs k)) ks).
  { apply Forall_forall. intros k Ik. assert (IP : forall g, In g (k_segs k) -> In g (all_segs L)).
    { intros g Ig. apply (Permutation_in _ (Permutation_sym PM)). apply in_flat_map. eauto. }
    destruct (GM (k_name k) (k_segs k)) as [N1 N2]; [apply in_map_iff; exists k; auto|]. split.
    - destruct (k_segs k) as [|g q]; [congruence|]. rewrite <- (N2 g) by (left; reflexivity). apply SG. apply IP. left. reflexivity.
    - apply Forall_forall. intros g Ig. pose proof (SG g (IP g Ig)) as Sg. split; [exact Sg|]. apply Forall_forall. intros c Ic.
      destruct Sg as (_ & _ & _ & _ & _ & HC). rewrite Forall_forall in HC. apply good_ok; [|apply HC, Ic]. unfold all_cells. apply in_flat_map. eauto. }
  assert (EU : exists u, spks_text o (join fl0 (all_cells L)) ks = Ok u).
  { destruct (run_spks e maxn o (join fl0 (all_cells L)) [] [] (base o [] [] [] []) ks ltac:(cbn; lia) [] [] None ND HK eq_refl) as (u & _ & Eu & _). eauto. }
  destruct EU as (u & EU). pose proof HL as HL'. inversion HL as [|? ? (_ & LB & LN & _) _]; subst.
  eexists. exists (map pair_of ks), (g_ref s'), (g_hyp s'), (base_name systm). split; [|split; [|split; [exact GR|split; [exact NM|split; [exact BN|]]]]].
  - unfold system_text. change {| g_spks := []; g_cur := None; g_ref := []; g_hyp := []; g_set := false |} with first_group. rewrite E1. cbn [rbind]. unfold L at 1. cbv zeta. fold ks. rewrite AX, EU. cbn [rbind]. reflexivity.
  - rewrite (run_report e maxn o (join fl0 (all_cells L)) (base_name systm) (g_ref s') (g_hyp s') date (sp_labels p) ks u) by assumption.
    f_equal. f_equal. unfold report_of, with_grps, with_labels, base. cbn. f_equal. rewrite map_map. apply map_ext. intros k. reflexivity.
  - intros ONE n ss I2. apply in_map_iff in I2 as (k & EK & IK). injection EK as <- <-.
    assert (OB : ordered_but None s').
    { apply (ordered_ok S HS L first_group [] s' SC ONE Inv_first I); [intros k' []|exact E1]. }
    destruct (OB k) as [D|D]; [|discriminate|exact D]. apply (Permutation_in _ (Permutation_sym (proj1 (HS spk k_seq (g_spks s'))))). exact IK.
Qed.
