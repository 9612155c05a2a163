(** The analysis of the sentences in common. *)
From Coq Require Import List Arith ZArith NArith Bool Lia.
From Verif Require Import Base Text_Model Text_Spec NetDp_Model Word_Model Order_Model Order_Proofs1 Path_Model Path_Spec Scores_Model Scores_Spec Alex_Model Alex_Spec Alex_Proofs1 Alex_Proofs2
  Dtl_Model Cor_Model Cor_Spec Cor_Proofs1 Cor_Proofs2.
Import ListNotations.
Local Open Scope res_scope.
Local Open Scope nat_scope.

Ltac ll := unfold wstep, step in *; cbn [length] in *; lia.
Definition is_corr (ev : eval) : bool := match ev with PCorr => true | _ => false end.
Lemma skip_ok (l : list wstep) : Forall well_formed_step l -> verdicts (skip_ins l) = verdicts l /\ Forall well_formed_step (skip_ins l) /\ length (skip_ins l) <= length l
  /\ match skip_ins l with [] => True | (a, _, _) :: _ => a <> None end.
Proof.
  induction 1 as [|s l W F IH]; [cbn; auto|]. destruct s as [[a b] ev]. destruct ev; cbn [skip_ins].
  - split; [reflexivity|]. split; [constructor; assumption|]. split; [apply Nat.le_refl|]. apply W.
  - split; [reflexivity|]. split; [constructor; assumption|]. split; [apply Nat.le_refl|]. apply W.
  - destruct IH as (A & B & C & D). destruct W as [-> _]. cbn [verdicts flat_map app length] in *. split; [exact A|]. split; [exact B|]. split; [apply le_S; exact C|exact D].
  - split; [reflexivity|]. split; [constructor; assumption|]. split; [apply Nat.le_refl|]. apply W.
Qed.
Lemma verdicts_some a b ev (l : list wstep) : verdicts ((Some a, b, ev) :: l) = (w_value a, is_corr ev) :: verdicts l.
Proof. reflexivity. Qed.

(** ** the same reference words *)
Section Enc.
Variable e : enc.
Definition good (l : list wstep) : Prop := Forall well_formed_step l /\ Forall (well_formed e) (refs l).
Lemma good_skip l : good l -> good (skip_ins l).
Proof. intros [W F]. destruct (skip_ok l W) as (A & B & _). split; [exact B|]. unfold refs in *. rewrite A. exact F. Qed.
Lemma good_cons a b ev l : good ((Some a, b, ev) :: l) -> good l /\ well_formed e (w_value a).
Proof. intros [W F]. inversion W; subst. cbn in F. inversion F; subst. split; [split; assumption|assumption]. Qed.
Lemma refs_skip l : good l -> refs (skip_ins l) = refs l.
Proof. intros [W _]. unfold refs. rewrite (proj1 (skip_ok l W)). reflexivity. Qed.
Lemma skip_cases l : good l -> (skip_ins l = [] /\ verdicts l = []) \/
  (exists a b ev r, skip_ins l = (Some a, b, ev) :: r /\ verdicts l = (w_value a, is_corr ev) :: verdicts r /\ good r /\ well_formed e (w_value a) /\ S (length r) <= length l).
Proof.
  intros H. pose proof (good_skip l H) as G. destruct H as [W _]. destruct (skip_ok l W) as (A & _ & L & D). destruct (skip_ins l) as [|[[a b] ev] r] eqn:E.
  - left. split; [reflexivity|]. rewrite <- A. reflexivity.
  - right. destruct a as [a|]; [|congruence]. apply good_cons in G as [G Wa]. exists a, b, ev, r. rewrite <- A. split; [reflexivity|]. split; [reflexivity|]. split; [exact G|]. split; [exact Wa|exact L].
Qed.
Lemma same_refs_ok : forall fuel l0 lp, length l0 < fuel -> good l0 -> good lp -> refs l0 = refs lp -> same_refs fuel e l0 lp = Ok true.
Proof.
  induction fuel as [|f IH]; intros l0 lp Hf G0 Gp R; [ll|]. cbn [same_refs]. unfold refs in R.
  destruct (skip_cases l0 G0) as [(E0 & V0)|(a & b & ev & r & E0 & V0 & Gr & Wa & L0)], (skip_cases lp Gp) as [(Ep & Vp)|(a' & b' & ev' & r' & Ep & Vp & Gr' & Wa' & Lp)];
    rewrite V0, Vp in R; cbn [map fst] in R; try discriminate.
  - destruct l0, lp; try reflexivity. rewrite E0, Ep. reflexivity.
  - destruct l0 as [|s0 l0]; [reflexivity|]. destruct lp as [|sp lp]; [reflexivity|]. rewrite E0, Ep. cbn [value_of rbind].
    destruct (compare e (w_value a) (w_value a') Wa Wa') as (z & -> & C0 & _). cbn [rbind]. injection R as Rh Rt.
    destruct (Z.eqb_spec z 0) as [_|Ne]; [|exfalso; apply Ne, C0; exact Rh]. apply IH; [ll|exact Gr|exact Gr'|exact Rt].
Qed.
Lemma all_same_ok l0 ls : good l0 -> Forall good ls -> Forall (fun l => refs l0 = refs l) ls -> all_same e l0 ls = Ok true.
Proof.
  intros G. induction 1 as [|l ls Gl F IH]; intros R; [reflexivity|]. inversion R; subst. cbn [all_same]. rewrite same_refs_ok by (assumption || ll). cbn [rbind]. apply IH; assumption.
Qed.
(** a difference at a place that both have is found *)
Lemma same_refs_diff : forall fuel l0 lp k v w, length l0 < fuel -> good l0 -> good lp ->
  nth_error (refs l0) k = Some v -> nth_error (refs lp) k = Some w -> v <> w -> same_refs fuel e l0 lp = Ok false.
Proof.
  induction fuel as [|f IH]; intros l0 lp k v w Hf G0 Gp Hv Hw Ne; [ll|]. cbn [same_refs]. unfold refs in Hv, Hw.
  destruct (skip_cases l0 G0) as [(E0 & V0)|(a & b & ev & r & E0 & V0 & Gr & Wa & L0)]; [rewrite V0 in Hv; destruct k; discriminate|].
  destruct (skip_cases lp Gp) as [(Ep & Vp)|(a' & b' & ev' & r' & Ep & Vp & Gr' & Wa' & Lp)]; [rewrite Vp in Hw; destruct k; discriminate|].
  rewrite V0 in Hv. rewrite Vp in Hw. destruct l0 as [|s0 l0]; [discriminate|]. destruct lp as [|sp lp]; [discriminate|]. rewrite E0, Ep. cbn [value_of rbind].
  destruct (compare e (w_value a) (w_value a') Wa Wa') as (z & -> & C0 & _). cbn [rbind]. destruct (Z.eqb_spec z 0) as [Ez|Nz]; [|reflexivity].
  destruct k as [|k]; cbn [map fst nth_error] in Hv, Hw.
  - injection Hv as <-. injection Hw as <-. exfalso. apply Ne, C0, Ez.
  - apply (IH r r' k v w); try assumption. ll.
Qed.

(** ** the marks *)
Definition sane (m : marked) : Prop := Forall (fun p => match fst p with (Some _, _, ev) => ev <> PIns /\ snd p <> PIns | (None, _, ev) => ev = PIns /\ snd p = PIns end) m.
Definition marks (m : marked) : list bool := flat_map (fun p => match fst p with (Some _, _, _) => [is_corr (snd p)] | _ => [] end) m.
Definition words (m : marked) : list (list N) := flat_map (fun p => match fst p with (Some a, _, _) => [w_value a] | _ => [] end) m.
Fixpoint ors (a b : list bool) : list bool :=
  match a, b with x :: a', y :: b' => (x || y) :: ors a' b' | _, _ => [] end.
Lemma skip_marked_ok m : sane m -> fst (skip_marked m) ++ snd (skip_marked m) = m /\ marks (fst (skip_marked m)) = [] /\ words (fst (skip_marked m)) = [] /\ sane (fst (skip_marked m)) /\ sane (snd (skip_marked m))
  /\ match snd (skip_marked m) with [] => True | ((a, _, _), _) :: _ => a <> None end.
Proof.
  induction 1 as [|p m H F IH]; [cbn; repeat split; constructor|]. destruct p as [[[[a|] b] ev] x]; cbn in H.
  - destruct H as [H1 H2]. destruct ev; [| |congruence|]; (split; [reflexivity|split; [reflexivity|split; [reflexivity|split; [constructor|split; [constructor; [split; [discriminate|exact H2]|exact F]|discriminate]]]]]).
  - destruct H as [-> ->]. cbn [skip_marked]. destruct (skip_marked m) as [u v]. cbn [fst snd] in *. destruct IH as (A & B & C & D & E & G). cbn [app marks words flat_map fst]. rewrite A.
    split; [reflexivity|]. split; [exact B|]. split; [exact C|]. split; [constructor; [split; reflexivity|exact D]|]. split; [exact E|exact G].
Qed.
Lemma marks_app u v : marks (u ++ v) = marks u ++ marks v.
Proof. apply flat_map_app. Qed.
Lemma words_app u v : words (u ++ v) = words u ++ words v.
Proof. apply flat_map_app. Qed.
Lemma words_len m : length (words m) = length (marks m).
Proof. induction m as [|[[[[a|] b] ev] x] m IH]; cbn; auto. Qed.
Lemma mark_ok : forall fuel m lp, length m < fuel -> sane m -> Forall (well_formed e) (words m) -> good lp -> words m = refs lp ->
  exists m', mark fuel e m lp = Ok m' /\ sane m' /\ words m' = words m /\ marks m' = ors (marks m) (map snd (verdicts lp)) /\ length m' = length m.
Proof.
  induction fuel as [|f IH]; intros m lp Hf Hs Hw Gp R; [ll|]. cbn [mark].
  assert (Nil : words m = [] -> verdicts lp = [] -> exists m', Ok m = Ok m' /\ sane m' /\ words m' = words m /\ marks m' = ors (marks m) (map snd (verdicts lp)) /\ length m' = length m).
  { intros E1 E2. exists m. split; [reflexivity|]. split; [exact Hs|]. split; [reflexivity|]. split; [|reflexivity]. rewrite E2. pose proof (words_len m) as L. rewrite E1 in L.
    destruct (marks m); [reflexivity|discriminate]. }
  destruct (skip_marked_ok m Hs) as (A & B & C & D & E & G). destruct (skip_marked m) as [before rest]. cbn [fst snd] in *.
  assert (Wm : words m = words rest) by (rewrite <- A, words_app, C; reflexivity).
  assert (Mm : marks m = marks rest) by (rewrite <- A, marks_app, B; reflexivity).
  destruct (skip_cases lp Gp) as [(Ep & Vp)|(a' & b' & ev' & r' & Ep & Vp & Gr' & Wa' & Lp)].
  - assert (X : words m = []) by (rewrite R; unfold refs; rewrite Vp; reflexivity).
    assert (Z0 : rest = []).
    { destruct rest as [|[[[[a|] b] ev] x] rest]; [reflexivity|rewrite Wm in X; discriminate|contradiction]. }
    subst rest. destruct m as [|p m0] eqn:Em; [apply Nil; [exact X|exact Vp]|]. rewrite <- Em in *. destruct lp; [apply Nil; [exact X|exact Vp]|]. rewrite Ep. apply Nil; [exact X|exact Vp].
  - assert (Rm : words rest = w_value a' :: map fst (verdicts r')) by (rewrite <- Wm, R; unfold refs; rewrite Vp; reflexivity).
    destruct rest as [|[[[[a|] b] ev] x] r]; [discriminate| |contradiction]. cbn [words flat_map app fst] in Rm. injection Rm as Rh Rt.
    assert (Hm : m <> []) by (intros X; rewrite X in A; destruct before; discriminate). assert (Hlp : lp <> []) by (intros ->; discriminate).
    assert (Wa : well_formed e (w_value a)) by (rewrite Wm in Hw; cbn in Hw; inversion Hw; assumption).
    pose proof (Forall_inv E) as Ex. pose proof (Forall_inv_tail E) as Er.
    destruct (IH r r') as (m' & E' & S' & W' & M' & L').
    { rewrite <- A, app_length in Hf. ll. }
    { exact Er. }
    { rewrite Wm in Hw. cbn in Hw. inversion Hw; assumption. }
    { exact Gr'. }
    { exact Rt. }
    assert (Goal' : exists m'0, (let* v := value_of (Some a) in let* w := value_of (Some a') in let* c := strcmp e (cstr v) (cstr w) in
        if (c =? 0)%Z then let* r0 := mark f e r r' in Ok (before ++ (Some a, b, ev, match ev' with PCorr => PCorr | _ => x end) :: r0) else Exit) = Ok m'0
        /\ sane m'0 /\ words m'0 = words m /\ marks m'0 = ors (marks m) (map snd (verdicts lp)) /\ length m'0 = length m).
    { cbn [value_of rbind]. destruct (compare e (w_value a) (w_value a') Wa Wa') as (z & -> & C0 & _). cbn [rbind].
      destruct (Z.eqb_spec z 0) as [_|Ne]; [|exfalso; apply Ne, C0; exact Rh]. rewrite E'. cbn [rbind]. eexists. split; [reflexivity|].
      split; [apply Forall_app; split; [exact D|constructor; [|exact S']]; cbn in Ex |- *; split; [apply Ex|destruct ev'; [discriminate|apply Ex|apply Ex|apply Ex]]|].
      split; [rewrite words_app, C; cbn [words flat_map app fst]; fold (words m'); rewrite W', Wm; reflexivity|].
      split; [rewrite marks_app, B, Mm, Vp; cbn [marks flat_map app fst snd map ors]; fold (marks m') (marks r); rewrite M'; f_equal; destruct ev'; cbn; rewrite ?orb_true_r, ?orb_false_r; reflexivity|].
      rewrite <- A, !app_length. ll. }
    destruct m as [|p0 m1]; [congruence|]. destruct lp as [|sp lp']; [congruence|]. rewrite Ep. exact Goal'.
Qed.
End Enc.
