(** The weight of a word after loading. *)
From Coq Require Import String List NArith ZArith Arith Bool Lia Permutation Sorted.
From Verif Require Import Base Text_Model Text_Spec Text_Proofs1 Word_Model Word_Proofs Order_Model Store_Model Alex_Model AsStm_Model Wwl_Model Wwl_Spec Wwl_Proofs1 Wwl_Proofs2.
From Verif Require AsStm_Spec AsStm_Proofs1.
Import ListNotations.
Local Open Scope res_scope.
Local Open Scope nat_scope.

Lemma parts_pieces w ps : parts w ps -> pieces (N.eqb 61) [] w = ps.
Proof.
  assert (B : forall s, Forall (fun c => c = 61%N) s -> Forall (fun c => N.eqb 61 c = true) s).
  { intros s F. eapply Forall_impl; [|exact F]. intros c ->. reflexivity. }
  induction 1 as [s F|s p r ps F NE NI HR P IH].
  - rewrite <- (app_nil_r s). rewrite AsStm_Proofs1.pieces_blank by auto. reflexivity.
  - rewrite AsStm_Proofs1.pieces_blank by auto. rewrite AsStm_Proofs1.pieces_word.
    2:{ apply Forall_forall. intros c I. destruct (N.eqb_spec 61 c); [subst; contradiction|reflexivity]. }
    cbn [app]. destruct HR as [->|(t & ->)].
    + cbn [pieces]. destruct p; [congruence|]. rewrite <- IH. reflexivity.
    + rewrite <- IH. destruct p; [congruence|]. reflexivity.
Qed.
Lemma get_weight_ok e l k w : well_formed e w -> Forall (fun x => well_formed e (ww_str x)) (l_words l) -> Sorted (R e) (l_words l) ->
  (forall x, In x (l_words l) -> ww_str x = w -> exists v, nth_error (ww_weight x) k = Some (Some v)) ->
  exists z, get_weight e l k w = Ok z
    /\ ((exists x, In x (l_words l) /\ ww_str x = w /\ nth_error (ww_weight x) k = Some (Some z))
        \/ ((forall x, In x (l_words l) -> ww_str x <> w) /\ z = l_default l)).
Proof.
  intros W WL SO WT. unfold get_weight. apply search_ok; try assumption; try lia.
  - destruct (l_words l); [right; split; [reflexivity|split; reflexivity]|left; cbn [length]; lia].
  - intros i x E [K|K]; [lia|]. assert (i < length (l_words l)) by (apply nth_error_Some; congruence). lia.
Qed.
Lemma sum_ok e l k (P : str -> Z -> Prop) ps : (forall p, In p ps -> exists z, get_weight e l k p = Ok z /\ P p z) ->
  forall acc, exists zs, sum_parts e l k ps acc = Ok (acc + total zs)%Z /\ Forall2 P ps zs.
Proof.
  induction ps as [|p ps IH]; intros H acc.
  - exists []. cbn. rewrite Z.add_0_r. split; [reflexivity|constructor].
  - destruct (H p (or_introl eq_refl)) as (z & E & Q). cbn [sum_parts]. rewrite E. cbn [rbind].
    destruct (IH (fun q I => H q (or_intror I)) (acc + z)%Z) as (zs & E2 & F). exists (z :: zs). rewrite E2. cbn [total fold_right].
    split; [f_equal; unfold total; lia|constructor; assumption].
Qed.
Lemma existsb_in c w : existsb (N.eqb c) w = true <-> In c w.
Proof.
  rewrite existsb_exists. split.
  - intros (x & I & E). apply N.eqb_eq in E. subst. exact I.
  - intros I. exists c. split; [exact I|apply N.eqb_refl].
Qed.
Lemma existsb_not c w : ~ In c w -> existsb (N.eqb c) w = false.
Proof. intros H. destruct (existsb (N.eqb c) w) eqn:E; [|reflexivity]. apply existsb_in in E. contradiction. Qed.

(** the list the loader makes *)
Lemma made_listed num e sort is k w desc : sorts e sort -> Forall (fun p => well_formed e (fst p) /\ k < length (snd p)) (words_of is) -> well_formed e w ->
  exists z, get_weight e {| l_desc := desc; l_default := default_weight num is; l_words := sort (map (entry num) (words_of is)) |} k w = Ok z
    /\ listed num is k w z.
Proof.
  intros SO F W.
  assert (WE : Forall (fun x => well_formed e (ww_str x)) (map (entry num) (words_of is))).
  { apply Forall_map. eapply Forall_impl; [|exact F]. intros p (H & _). exact H. }
  destruct (SO _ WE) as (PM & SR).
  assert (NTH : forall p, k < length (snd p) -> exists x, nth_error (snd p) k = Some x /\ nth_error (ww_weight (entry num p)) k = Some (Some (num x))).
  { intros p L. destruct (nth_error (snd p) k) as [x|] eqn:E; [|apply nth_error_None in E; unfold str in *; lia]. exists x. split; [reflexivity|].
    unfold entry. cbn [ww_weight]. rewrite nth_error_app1 by (rewrite map_length; exact L). rewrite nth_error_map, E. reflexivity. }
  match goal with |- exists z, get_weight _ ?l _ _ = _ /\ _ => destruct (get_weight_ok e l k w W) as (z & E & H) end; cbn [l_words l_default] in *.
  - apply Forall_forall. intros x I. rewrite Forall_forall in WE. apply WE. apply (Permutation_in x (Permutation_sym PM)), I.
  - exact SR.
  - intros x I _. apply (Permutation_in x (Permutation_sym PM)), in_map_iff in I. destruct I as (p & <- & I).
    rewrite Forall_forall in F. destruct (F p I) as (_ & L). destruct (NTH p L) as (y & _ & EY). eauto.
  - exists z. split; [exact E|]. destruct H as [(x & I & EW & EV)|(NO & ->)].
    + left. apply (Permutation_in x (Permutation_sym PM)), in_map_iff in I. destruct I as (p & <- & I).
      rewrite Forall_forall in F. destruct (F p I) as (_ & L). destruct (NTH p L) as (y & EN & EY). rewrite EY in EV. injection EV as EV.
      exists (snd p), y. split; [|split; [exact EN|congruence]]. cbn [entry ww_str] in EW. destruct p as (a, b). cbn [fst snd] in *. subst a. exact I.
    + right. split; [|reflexivity]. intros ws I. apply (NO (entry num (w, ws))); [|reflexivity]. apply (Permutation_in _ PM), in_map, I.
Qed.
