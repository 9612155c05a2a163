(** The speakers of the report. *)
From Coq Require Import String.
From Coq Require Import List ZArith NArith Arith Bool Lia Permutation Sorting.Sorted.
From Verif Require Import Base Text_Model Sgml_Model Sgml_Spec Sgml_Proofs1 Arep_Model Arep_Spec.
Import ListNotations.
Local Open Scope res_scope.
Local Open Scope list_scope.

Definition fresh (g : seg) : spk := {| k_name := sg_spkr g; k_seq := sg_num g; k_segs := [] |}.
Lemma place_ok l g : exists a k b, place l g = (a ++ add_segment k g :: b, length a) /\ k_name k = sg_spkr g /\
  (l = a ++ k :: b \/ (l = a /\ b = [] /\ k = fresh g)) /\ ~ In (sg_spkr g) (map k_name a).
Proof.
  induction l as [|k l IH]; cbn [place].
  - exists [], (fresh g), []. repeat split; auto.
  - destruct (Scores_Model.same (sg_spkr g) (k_name k)) eqn:E.
    + apply same_eq in E. exists [], k, l. repeat split; auto.
    + destruct IH as (a & k0 & b & E1 & E2 & E3 & E4). rewrite E1. exists (k :: a), k0, b. cbn [app length]. split; [reflexivity|]. split; [exact E2|]. split.
      * destruct E3 as [->|(-> & E3)]; [left; reflexivity|right; auto].
      * cbn [map]. intros [I|I]; [rewrite I, same_refl in E; discriminate|contradiction].
Qed.
Lemma sort_at_ok S a k b : sort_at S (a ++ k :: b) (length a) = Ok (a ++ sort_segs S k :: b).
Proof. induction a as [|x a IH]; [reflexivity|]. cbn [app length sort_at]. rewrite IH. reflexivity. Qed.
Lemma nth_split_at {A} (l : list A) i : i < length l -> exists a k b, l = a ++ k :: b /\ i = length a.
Proof.
  revert i. induction l as [|x l IH]; intros i H; [cbn in H; lia|]. destruct i as [|i]; [exists [], x, l; auto|].
  cbn in H. destruct (IH i ltac:(lia)) as (a & k & b & -> & ->). exists (x :: a), k, b. auto.
Qed.

(** ** The invariant *)
Definition pair_of (k : spk) : list N * list seg := (k_name k, k_segs k).
Definition spk_ok (k : spk) : Prop := (forall g, In g (k_segs k) -> sg_spkr g = k_name k) /\ k_segs k <> [] /\ least (k_segs k) (k_seq k).
Definition Inv (segs : list seg) (ks : list spk) : Prop :=
  NoDup (map k_name ks) /\ Permutation segs (flat_map k_segs ks) /\ Forall spk_ok ks.
Lemma add_ok k g : spk_ok k \/ k = fresh g -> k_name k = sg_spkr g -> spk_ok (add_segment k g).
Proof.
  intros H E. split; [|split].
  - intros x Hx. cbn in *. apply in_app_or in Hx as [Hx|[<-|[]]]; [|auto]. destruct H as [(H & _)| ->]; [auto|destruct Hx].
  - cbn. destruct (k_segs k); discriminate.
  - cbn [k_segs k_seq add_segment]. destruct H as [(_ & _ & (x & Ix & Ex) & L)| ->].
    + destruct (Z.ltb_spec (sg_num g) (k_seq k)).
      * split; [exists g; split; [apply in_or_app; right; left; reflexivity|reflexivity]|]. intros y Iy. apply in_app_or in Iy as [Iy|[<-|[]]]; [|lia]. specialize (L y Iy). lia.
      * split; [exists x; split; [apply in_or_app; left; exact Ix|exact Ex]|]. intros y Iy. apply in_app_or in Iy as [Iy|[<-|[]]]; [exact (L y Iy)|lia].
    + cbn. rewrite Z.ltb_irrefl. split; [exists g; cbn; auto|]. cbn. intros y [<-|[]]. lia.
Qed.
Lemma Inv_place segs ks g ks' i : Inv segs ks -> place ks g = (ks', i) -> Inv (segs ++ [g]) ks' /\ i < length ks'.
Proof.
  intros (ND & P & F) E. destruct (place_ok ks g) as (a & k & b & E1 & E2 & E3 & E4). rewrite E1 in E. injection E as <- <-. split; [|rewrite app_length; cbn; lia].
  split; [|split].
  - rewrite map_app. cbn [map]. change (k_name (add_segment k g)) with (k_name k). destruct E3 as [->|(-> & -> & ->)].
    + rewrite map_app in ND. exact ND.
    + cbn [map fresh k_name]. apply NoDup_Add with (a := sg_spkr g) (l := map k_name a); [|split; [exact ND|exact E4]].
      rewrite <- (app_nil_r (map k_name a)) at 1. apply Add_app.
  - rewrite flat_map_app. cbn [flat_map k_segs add_segment]. eapply Permutation_trans; [apply Permutation_app_tail; exact P|]. destruct E3 as [->|(-> & -> & ->)].
    + rewrite flat_map_app. cbn [flat_map]. rewrite <- !app_assoc. apply Permutation_app_head, Permutation_app_head. apply Permutation_app_comm.
    + cbn [fresh k_segs flat_map app]. apply Permutation_refl.
  - assert (SP : spk_ok k \/ k = fresh g).
    { destruct E3 as [->|(_ & _ & ->)]; [|auto]. apply Forall_app in F as [_ F]. inversion F; auto. }
    pose proof (add_ok k g SP E2) as A. destruct E3 as [->|(-> & -> & ->)].
    + apply Forall_app in F as [F1 F2]. inversion F2; subst. apply Forall_app. split; [exact F1|constructor; assumption].
    + apply Forall_app. split; [exact F|constructor; [exact A|constructor]].
Qed.
Lemma sort_ok S k : sorts S -> spk_ok k -> spk_ok (sort_segs S k).
Proof.
  intros HS (H1 & H2 & (x & Ix & Ex) & L). destruct (HS seg sg_num (k_segs k)) as [P _]. unfold sort_segs, spk_ok. cbn [k_segs k_seq k_name].
  split; [|split; [|split]].
  - intros g Hg. apply H1. eapply Permutation_in; [apply Permutation_sym; exact P|exact Hg].
  - intro E. rewrite E in P. apply Permutation_sym, Permutation_nil in P. contradiction.
  - exists x. split; [eapply Permutation_in; eassumption|exact Ex].
  - intros g Hg. apply L. eapply Permutation_in; [apply Permutation_sym; exact P|exact Hg].
Qed.
Lemma Inv_sort S segs ks i ks' : sorts S -> Inv segs ks -> sort_at S ks i = Ok ks' -> Inv segs ks' /\ length ks' = length ks.
Proof.
  intros HS (ND & P & F) E.
  assert (L : i < length ks).
  { clear ND P F. revert i ks' E. induction ks as [|k ks IH]; intros [|i] ks' E; cbn in *; try discriminate; [lia|].
    destruct (sort_at S ks i) eqn:E1; try discriminate. apply IH in E1. lia. }
  destruct (nth_split_at ks i L) as (a & k & b & -> & ->). rewrite sort_at_ok in E. injection E as <-. split; [|rewrite !app_length; reflexivity].
  split; [|split].
  - rewrite map_app in *. exact ND.
  - rewrite flat_map_app in *. cbn [flat_map sort_segs k_segs] in *. eapply Permutation_trans; [exact P|]. apply Permutation_app_head, Permutation_app_tail. apply HS.
  - apply Forall_app in F as [F1 F2]. inversion F2; subst. apply Forall_app. split; [exact F1|constructor; [apply sort_ok; assumption|assumption]].
Qed.

(** ** The loops *)
Definition scored (g : seg) : Prop := Forall (fun c => c_eval c <> None) (sg_cells g).
Lemma hyp_name_ok g : scored g -> hyp_name g = Ok (first_hyp g).
Proof.
  intros H. unfold hyp_name, first_hyp. destruct (sg_cells g) as [|c l] eqn:E; [reflexivity|]. unfold scored in H. rewrite E in H. inversion H; subst.
  unfold hyp_of. destruct (c_eval c) as [[r [t|]]|]; [reflexivity|reflexivity|contradiction].
Qed.
Definition next (s : group) (g : seg) : group :=
  {| g_spks := fst (place (g_spks s) g); g_cur := Some (snd (place (g_spks s) g)); g_ref := g_ref s;
     g_hyp := if g_set s then g_hyp s else match first_hyp g with Some h => h | None => g_hyp s end;
     g_set := g_set s || match first_hyp g with Some _ => true | None => false end |}.
Lemma add_segs_ok l : forall s, Forall scored l -> add_segs l s = Ok (fold_left next l s).
Proof.
  induction l as [|g l IH]; intros s H; [reflexivity|]. inversion H; subst. cbn [add_segs fold_left].
  assert (E : (if g_set s then Ok None else hyp_name g) = Ok (if g_set s then None else first_hyp g)) by (destruct (g_set s); [reflexivity|apply hyp_name_ok; assumption]).
  rewrite E. cbn [rbind]. unfold next at 2. destruct (place (g_spks s) g) as [ks i]. rewrite IH by assumption. f_equal. f_equal. cbn [fst snd].
  destruct (g_set s); [reflexivity|]. destruct (first_hyp g); reflexivity.
Qed.
Definition valid (s : group) : Prop := match g_cur s with Some i => i < length (g_spks s) | None => True end.
Lemma next_inv l : forall segs s, Inv segs (g_spks s) -> valid s -> Inv (segs ++ l) (g_spks (fold_left next l s)) /\ valid (fold_left next l s).
Proof.
  induction l as [|g l IH]; intros segs s HI HV; [rewrite app_nil_r; auto|]. cbn [fold_left].
  replace (segs ++ g :: l) with ((segs ++ [g]) ++ l) by (rewrite <- app_assoc; reflexivity).
  destruct (place (g_spks s) g) as [ks i] eqn:E. destruct (Inv_place _ _ _ _ _ HI E) as [H1 H2]. apply IH; unfold next, valid; cbn [g_spks g_cur]; rewrite E; assumption.
Qed.
Lemma next_cur l s : l <> [] \/ g_cur s <> None -> g_cur (fold_left next l s) <> None.
Proof. revert s. induction l as [|g l IH]; intros s [H|H]; cbn [fold_left]; try contradiction; [exact H|apply IH; right; discriminate|apply IH; right; discriminate]. Qed.
Definition open_speech (p : speech) (s : group) : group :=
  {| g_spks := g_spks s; g_cur := g_cur s; g_ref := if g_set s then g_ref s else sp_file p; g_hyp := g_hyp s; g_set := g_set s |}.
Definition with_spks (s : group) (ks : list spk) : group :=
  {| g_spks := ks; g_cur := g_cur s; g_ref := g_ref s; g_hyp := g_hyp s; g_set := g_set s |}.

Section sorted.
  Variable S : sorter.
  Hypothesis HS : sorts S.
  (** one speech *)
  Lemma speech_step p s segs : Forall scored (sp_segs p) -> Inv segs (g_spks s) -> valid s -> (sp_segs p <> [] \/ g_cur s <> None) ->
    exists ks, (forall r, add_speeches S (p :: r) s = add_speeches S r (with_spks (fold_left next (sp_segs p) (open_speech p s)) ks)) /\
      Inv (segs ++ sp_segs p) ks /\ length ks = length (g_spks (fold_left next (sp_segs p) (open_speech p s))) /\
      (exists i, g_cur (fold_left next (sp_segs p) (open_speech p s)) = Some i /\ sort_at S (g_spks (fold_left next (sp_segs p) (open_speech p s))) i = Ok ks).
  Proof.
    intros H HI HV HN. destruct (next_inv (sp_segs p) segs (open_speech p s) HI HV) as [I1 V1].
    pose proof (next_cur (sp_segs p) (open_speech p s) HN) as NC. unfold valid in V1. destruct (g_cur (fold_left next (sp_segs p) (open_speech p s))) as [i|] eqn:EC; [|contradiction].
    destruct (nth_split_at _ _ V1) as (a & k & b & E1 & E2).
    assert (E3 : sort_at S (g_spks (fold_left next (sp_segs p) (open_speech p s))) i = Ok (a ++ sort_segs S k :: b)) by (rewrite E1, E2; apply sort_at_ok).
    destruct (Inv_sort S _ _ _ _ HS I1 E3) as [I2 L2]. exists (a ++ sort_segs S k :: b). split; [|split; [exact I2|split; [exact L2|exists i; auto]]].
    intros r. cbn [add_speeches]. change {| g_spks := g_spks s; g_cur := g_cur s; g_ref := if g_set s then g_ref s else sp_file p; g_hyp := g_hyp s; g_set := g_set s |} with (open_speech p s).
    rewrite add_segs_ok by exact H. cbn [rbind]. rewrite EC, E3. cbn [rbind]. unfold with_spks. rewrite EC. reflexivity.
  Qed.
  Lemma speeches_ok l : forall s segs, Forall (fun p => Forall scored (sp_segs p)) l -> Inv segs (g_spks s) -> valid s ->
    (g_cur s <> None \/ match l with p :: _ => sp_segs p <> [] | [] => True end) ->
    exists s', add_speeches S l s = Ok s' /\ Inv (segs ++ all_segs l) (g_spks s').
  Proof.
    induction l as [|p l IH]; intros s segs H HI HV HN.
    - exists s. split; [reflexivity|]. cbn. rewrite app_nil_r. exact HI.
    - inversion H; subst. destruct (speech_step p s segs) as (ks & E & I1 & L & i & EC & _); [assumption|exact HI|exact HV|tauto|]. rewrite E.
      destruct (IH (with_spks (fold_left next (sp_segs p) (open_speech p s)) ks) (segs ++ sp_segs p)) as (s' & E1 & I2); [assumption|exact I1| |left; cbn; congruence|].
      { destruct (next_inv (sp_segs p) segs (open_speech p s) HI HV) as [_ V1]. unfold valid, with_spks in *. cbn [g_cur g_spks]. rewrite L. exact V1. }
      exists s'. split; [exact E1|]. cbn [all_segs flat_map]. rewrite app_assoc. exact I2.
  Qed.

  (** ** Speeches of one speaker *)
  Definition ordered_but (n : option (list N)) (s : group) : Prop :=
    forall k, In k (g_spks s) -> (Some (k_name k) = n) \/ in_order (k_segs k).
  Lemma one_step n l : forall s, (forall g, In g l -> sg_spkr g = n) -> ordered_but (Some n) s ->
    (match g_cur s with Some i => option_map k_name (nth_error (g_spks s) i) = Some n | None => l <> [] end \/ l <> []) ->
    ordered_but (Some n) (fold_left next l s) /\
    exists i, g_cur (fold_left next l s) = Some i /\ option_map k_name (nth_error (g_spks (fold_left next l s)) i) = Some n.
  Proof.
    induction l as [|g l IH]; intros s Hn HO HC; cbn [fold_left].
    - split; [exact HO|]. destruct HC as [HC|HC]; [|congruence]. destruct (g_cur s) as [i|]; [exists i; auto|congruence].
    - assert (N : ordered_but (Some n) (next s g) /\ exists i, g_cur (next s g) = Some i /\ option_map k_name (nth_error (g_spks (next s g)) i) = Some n).
      { unfold next, ordered_but. cbn [g_spks g_cur]. destruct (place_ok (g_spks s) g) as (a & k & b & E1 & E2 & E3 & _). rewrite E1. cbn [fst snd].
        rewrite (Hn g) in E2 by (left; reflexivity). split.
        - intros x Ix. apply in_app_or in Ix as [Ix|[<-|Ix]].
          + apply HO. destruct E3 as [->|(-> & _)]; [apply in_or_app; auto|exact Ix].
          + left. cbn. rewrite E2. reflexivity.
          + apply HO. destruct E3 as [->|(_ & -> & _)]; [apply in_or_app; right; right; exact Ix|destruct Ix].
        - exists (length a). split; [reflexivity|]. rewrite nth_error_app2, Nat.sub_diag by lia. cbn. rewrite E2. reflexivity. }
      destruct N as [N1 (i & N2 & N3)]. apply IH; [intros; apply Hn; right; assumption|exact N1|]. left. rewrite N2. exact N3.
  Qed.
  Lemma ordered_ok l : forall s segs s', Forall (fun p => Forall scored (sp_segs p)) l -> Forall one_speaker l -> Inv segs (g_spks s) -> valid s ->
    ordered_but None s -> add_speeches S l s = Ok s' -> ordered_but None s'.
  Proof.
    induction l as [|p l IH]; intros s segs s' H HO HI HV OB E; [injection E as <-; exact OB|]. inversion H as [|? ? HP HL]; subst. inversion HO as [|? ? HO1 HO2]; subst.
    assert (HN : sp_segs p <> [] \/ g_cur s <> None).
    { destruct (sp_segs p) as [|g q] eqn:EP; [|left; discriminate]. right. intro C. cbn [add_speeches] in E. rewrite EP in E. cbn [add_segs rbind g_cur] in E. rewrite C in E. discriminate. }
    destruct (speech_step p s segs) as (ks & E1 & I1 & L & i & EC & ES); [assumption|exact HI|exact HV|exact HN|]. rewrite E1 in E.
    apply (IH _ (segs ++ sp_segs p)) in E; try assumption.
    - destruct (next_inv (sp_segs p) segs (open_speech p s) HI HV) as [_ V1]. unfold valid, with_spks in *. cbn [g_cur g_spks]. rewrite L. exact V1.
    - set (t := fold_left next (sp_segs p) (open_speech p s)) in *.
      assert (Q : exists n, ordered_but (Some n) t /\ option_map k_name (nth_error (g_spks t) i) = Some n).
      { destruct (sp_segs p) as [|g q] eqn:EP.
        - subst t. cbn [fold_left] in *. cbn in EC, ES. unfold valid in HV. rewrite EC in HV. destruct (nth_error (g_spks s) i) as [k|] eqn:EK; [|apply nth_error_None in EK; lia].
          exists (k_name k). split; [|cbn; rewrite EK; reflexivity]. intros x Ix. destruct (OB x Ix) as [D|D]; [discriminate|auto].
        - exists (sg_spkr g). destruct (one_step (sg_spkr g) (g :: q) (open_speech p s)) as [N1 (j & N2 & N3)].
          + intros x Ix. apply (HO1 x g); rewrite EP; [exact Ix|left; reflexivity].
          + intros x Ix. destruct (OB x Ix) as [D|D]; [discriminate|auto].
          + right. discriminate.
          + fold t in N1, N2, N3. rewrite EC in N2. injection N2 as <-. auto. }
      destruct Q as (n & Q1 & Q2). unfold with_spks, ordered_but. cbn [g_spks].
      assert (LI : i < length (g_spks t)) by (apply nth_error_Some; intro C; rewrite C in Q2; discriminate).
      destruct (nth_split_at _ _ LI) as (a & k & b & E2 & E3). rewrite E2, E3, sort_at_ok in ES. injection ES as <-.
      rewrite E2, E3, nth_error_app2, Nat.sub_diag in Q2 by lia. cbn in Q2. injection Q2 as Q2.
      assert (NDt : NoDup (map k_name (g_spks t))) by (destruct (next_inv (sp_segs p) segs (open_speech p s) HI HV) as [(ND & _) _]; exact ND).
      rewrite E2, map_app in NDt. cbn [map] in NDt. apply NoDup_remove_2 in NDt.
      intros x Ix. right. apply in_app_or in Ix as [Ix|[<-|Ix]].
      + destruct (Q1 x) as [D|D]; [rewrite E2; apply in_or_app; auto| |exact D]. exfalso. injection D as D. apply NDt. apply in_or_app. left. apply in_map_iff. exists x. split; [congruence|exact Ix].
      + cbn. apply (proj2 (HS seg sg_num (k_segs k))).
      + destruct (Q1 x) as [D|D]; [rewrite E2; apply in_or_app; right; right; exact Ix| |exact D]. exfalso. injection D as D. apply NDt. apply in_or_app. right. apply in_map_iff. exists x. split; [congruence|exact Ix].
  Qed.

  (** ** The speakers in order *)
  Lemma least_unique l m n : least l m -> least l n -> m = n.
  Proof. intros ((x & Ix & Ex) & L) ((y & Iy & Ey) & M). specialize (L y Iy). specialize (M x Ix). lia. Qed.
  Lemma grouped_ok segs ks : Inv segs ks -> grouped segs (map pair_of (S spk k_seq ks)).
  Proof.
    intros (ND & P & F). destruct (HS spk k_seq ks) as [PS SS]. split; [|split; [|split]].
    - rewrite map_map. cbn [pair_of fst]. eapply Permutation_NoDup; [|exact ND]. apply Permutation_map. exact PS.
    - rewrite flat_map_concat_map, map_map. cbn [pair_of snd]. rewrite <- flat_map_concat_map. eapply Permutation_trans; [exact P|]. apply Permutation_flat_map. exact PS.
    - intros n ss I. apply in_map_iff in I as (k & E & I). unfold pair_of in E. injection E as <- <-. rewrite Forall_forall in F.
      destruct (F k) as (H1 & H2 & _); [eapply Permutation_in; [apply Permutation_sym; exact PS|exact I]|]. auto.
    - assert (F' : Forall spk_ok (S spk k_seq ks)) by (eapply Permutation_Forall; eassumption).
      clear ND P F PS. induction SS as [|k l SS IH HK]; [constructor|]. inversion F'; subst. cbn [map]. constructor; [apply IH; assumption|].
      apply Forall_map. rewrite Forall_forall in HK. apply Forall_forall. intros x Ix m n Lm Ln. cbn in Lm, Ln. specialize (HK x Ix).
      destruct H1 as (_ & _ & L1). rewrite Forall_forall in H2. destruct (H2 x Ix) as (_ & _ & L2).
      rewrite (least_unique _ _ _ Lm L1), (least_unique _ _ _ Ln L2). exact HK.
  Qed.
End sorted.

(** ** The names of the files *)
Lemma names_segs l : forall s, g_set (fold_left next l s) = g_set s || existsb (fun g => is_some (first_hyp g)) l /\
  g_ref (fold_left next l s) = g_ref s.
Proof.
  induction l as [|g l IH]; intros s; cbn [fold_left existsb]; [rewrite orb_false_r; auto|]. destruct (IH (next s g)) as [E1 E2]. rewrite E1, E2.
  split; [|reflexivity]. cbn [next g_set]. rewrite orb_assoc. unfold is_some. reflexivity.
Qed.
Lemma names_set l : forall s, g_set s = true -> g_hyp (fold_left next l s) = g_hyp s /\ g_set (fold_left next l s) = true.
Proof. induction l as [|g l IH]; intros s H; [auto|]. cbn [fold_left]. destruct (IH (next s g)) as [E1 E2]; [cbn; rewrite H; reflexivity|]. rewrite E1, E2. cbn. rewrite H. auto. Qed.
Lemma names_none l : forall s, Forall (fun g => first_hyp g = None) l -> g_set s = false -> g_hyp (fold_left next l s) = g_hyp s /\ g_set (fold_left next l s) = false.
Proof.
  induction l as [|g l IH]; intros s H HF; [auto|]. inversion H; subst. cbn [fold_left]. destruct (IH (next s g)) as [E1 E2]; [assumption|cbn; rewrite HF, H2; reflexivity|].
  rewrite E1, E2. cbn. rewrite HF, H2. auto.
Qed.
Lemma split_hyp l : Forall (fun g => first_hyp g = None) l \/ exists x g y h, l = x ++ g :: y /\ first_hyp g = Some h /\ Forall (fun g => first_hyp g = None) x.
Proof.
  induction l as [|g l IH]; [left; constructor|]. destruct (first_hyp g) as [h|] eqn:E; [right; exists [], g, l, h; auto|].
  destruct IH as [IH|(x & g' & y & h & -> & H1 & H2)]; [left; constructor; assumption|right; exists (g :: x), g', y, h; auto].
Qed.
Lemma kept_names S l : forall s s', Forall (fun p => Forall scored (sp_segs p)) l -> g_set s = true -> add_speeches S l s = Ok s' -> g_ref s' = g_ref s /\ g_hyp s' = g_hyp s.
Proof.
  induction l as [|p l IH]; intros s s' H HG E; [injection E as <-; auto|]. inversion H; subst. cbn [add_speeches] in E.
  match type of E with context [add_segs _ ?x] => change x with (open_speech p s) in E end. rewrite add_segs_ok in E by assumption. cbn [rbind] in E.
  destruct (g_cur _) as [i|]; [|discriminate]. destruct (sort_at _ _ _); try discriminate. cbn [rbind] in E. apply IH in E; [|assumption|].
  - cbn [g_ref g_hyp] in E. destruct (names_segs (sp_segs p) (open_speech p s)) as [_ E2]. destruct (names_set (sp_segs p) (open_speech p s) HG) as [E3 _]. rewrite E2, E3 in E.
    cbn in E. rewrite HG in E. exact E.
  - cbn [g_set]. apply names_set. exact HG.
Qed.
Lemma names_ok S l : forall s s', Forall (fun p => Forall scored (sp_segs p)) l -> g_set s = false -> g_hyp s = [] -> l <> [] -> add_speeches S l s = Ok s' ->
  names l (g_ref s') (g_hyp s').
Proof.
  induction l as [|p l IH]; intros s s' H HG HH NE E; [congruence|]. inversion H; subst. cbn [add_speeches] in E.
  match type of E with context [add_segs _ ?x] => change x with (open_speech p s) in E end. rewrite add_segs_ok in E by assumption. cbn [rbind] in E.
  destruct (g_cur _) as [i|]; [|discriminate]. destruct (sort_at _ _ _) as [ks| | |]; try discriminate. cbn [rbind] in E.
  destruct (split_hyp (sp_segs p)) as [N|(x & g & y & h & EP & Eh & Nx)].
  - destruct (names_none (sp_segs p) (open_speech p s) N HG) as [E1 E2]. destruct (names_segs (sp_segs p) (open_speech p s)) as [_ E3].
    destruct l as [|q l].
    + injection E as <-. cbn [g_ref g_hyp]. right. rewrite E1, E3. cbn. rewrite HG, HH. split; [constructor; [exact N|constructor]|]. split; [reflexivity|]. exists [], p. auto.
    + apply IH in E; [|assumption|exact E2|rewrite <- HH; exact E1|discriminate].
      destruct E as [(a & p' & b & x & g & y & E4 & E5 & E6 & E7 & E8 & E9)|(E4 & E5 & a & p' & E6 & E7)].
      * left. exists (p :: a), p', b, x, g, y. rewrite E4. repeat split; auto.
      * right. split; [constructor; assumption|]. split; [exact E5|]. exists (p :: a), p'. rewrite E6. auto.
  - assert (ST : g_set (fold_left next (sp_segs p) (open_speech p s)) = true /\ g_hyp (fold_left next (sp_segs p) (open_speech p s)) = h).
    { rewrite EP, fold_left_app. cbn [fold_left]. destruct (names_none x (open_speech p s) Nx HG) as [_ E2].
      destruct (names_set y (next (fold_left next x (open_speech p s)) g)) as [E3 E4].
      - cbn. rewrite Eh. apply orb_true_r.
      - rewrite E3, E4. cbn. rewrite E2, Eh. auto. }
    destruct ST as [ST SH]. apply kept_names in E; [|assumption|exact ST]. cbn [g_ref g_hyp] in E. destruct E as [-> ->].
    destruct (names_segs (sp_segs p) (open_speech p s)) as [_ ->]. rewrite SH. cbn. rewrite HG.
    left. exists [], p, l, x, g, y. repeat split; auto.
Qed.
Lemma base_name_ok p : is_base p (base_name p).
Proof.
  induction p as [|c p IH]; cbn [base_name]; [split; [intros []|left; reflexivity]|]. destruct (existsb (N.eqb 47) p) eqn:E.
  - destruct IH as [I1 [I2|(d & I2)]].
    + exfalso. apply existsb_exists in E as (x & Hx & Ex). apply N.eqb_eq in Ex. subst x. rewrite I2 in Hx. contradiction.
    + split; [exact I1|]. right. exists (c :: d). rewrite I2 at 1. reflexivity.
  - assert (N : ~ In 47%N p) by (intro I; apply (proj2 (existsb_exists _ _)) in E || (assert (existsb (N.eqb 47) p = true) by (apply existsb_exists; exists 47%N; auto); congruence)).
    destruct (N.eqb_spec c 47) as [->|NE]; [split; [exact N|right; exists []; reflexivity]|]. split; [intros [D|D]; [congruence|contradiction]|left; reflexivity].
Qed.
