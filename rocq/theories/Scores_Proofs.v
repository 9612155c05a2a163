(** Proofs about the speaker groups. *)
From Coq Require Import List Arith ZArith NArith Bool Lia.
From Verif Require Import Base NetDp_Model Word_Model Order_Model Path_Model Path_Spec Path_Proofs Scores_Model Scores_Spec.
Import ListNotations.
Local Open Scope res_scope.
Local Open Scope nat_scope.

Lemma same_iff a b : same a b = true <-> a = b.
Proof. unfold same. destruct (list_eq_dec N.eq_dec a b); split; intros; congruence. Qed.
Lemma same_refl a : same a a = true. Proof. apply same_iff. reflexivity. Qed.
Lemma same_false a b : same a b = false <-> a <> b.
Proof. unfold same. destruct (list_eq_dec N.eq_dec a b); split; intros; congruence. Qed.

(** * arrays in use *)
Definition room {A} (p : path A) (l : list A) : Prop := entries p l /\ length l < length (p_pset p) /\ 20 <= length (p_pset p).

Lemma room_init {A} n : 20 <= n -> room (A := A) {| p_pset := repeat None n; p_num := 0 |} [].
Proof. intros H. unfold room, entries. cbn [p_num p_pset length]. rewrite repeat_length. repeat split; try lia. Qed.

Lemma get_entry {A} (p : path A) l i x : entries p l -> nth_error l i = Some x -> get (p_pset p) i = Ok (Some x).
Proof.
  intros [N F] H. unfold get. assert (L : i < length l) by (apply nth_error_Some; congruence).
  rewrite <- (firstn_skipn (length l) (p_pset p)), F. rewrite nth_error_app1 by (rewrite map_length; exact L).
  rewrite nth_error_map, H. reflexivity.
Qed.

Lemma firstn_set_in {B} (f : B -> option B) (a : list (option B)) : forall l i y, firstn (length l) a = map Some l -> i < length l ->
  exists a', set a i (Some y) = Ok a' /\ length a' = length a
    /\ exists l1 x l2, l = l1 ++ x :: l2 /\ length l1 = i /\ firstn (length l) a' = map Some (l1 ++ y :: l2).
Proof.
  induction a as [|b a IH]; intros l i y F L; destruct l as [|x l]; cbn [length] in *; try lia; [discriminate|].
  cbn in F. injection F as E F. destruct i; cbn [set].
  - eexists. split; [reflexivity|]. split; [reflexivity|]. exists [], x, l. split; [reflexivity|]. split; [reflexivity|].
    cbn. rewrite F. reflexivity.
  - destruct (IH l i y F) as (a' & S & La & l1 & x' & l2 & El & Ll & Fa); [lia|]. rewrite S. cbn [rbind].
    eexists. split; [reflexivity|]. split; [cbn; lia|]. exists (x :: l1), x', l2. split; [cbn; congruence|]. split; [cbn; lia|].
    cbn. rewrite Fa, E. reflexivity.
Qed.

Lemma grow {A} (p : path A) l num den : entries p l -> length l <= length (p_pset p) -> 20 <= length (p_pset p) ->
  length (p_pset p) + 2 <= length (p_pset p) * num / den ->
  exists a, (if length (p_pset p) <=? p_num p + 1 then expand_singarr None (p_pset p) (p_num p) num den else Ok (p_pset p)) = Ok a
    /\ length l + 1 < length a /\ 20 <= length a /\ firstn (length l) a = map Some l.
Proof.
  intros [N F] L M G. rewrite N. destruct (Nat.leb_spec (length (p_pset p)) (length l + 1)) as [H|H].
  - unfold expand_singarr. replace ((length l <=? length (p_pset p)) && (length l <=? length (p_pset p) * num / den)) with true
      by (symmetry; apply andb_true_iff; split; apply Nat.leb_le; lia).
    eexists. split; [reflexivity|]. rewrite app_length, firstn_length, repeat_length, Nat.min_l by lia.
    split; [lia|]. split; [lia|]. rewrite firstn_app, firstn_length, Nat.min_l, Nat.sub_diag by lia. cbn [firstn].
    rewrite app_nil_r, firstn_firstn, Nat.min_id. exact F.
  - exists (p_pset p). split; [reflexivity|]. split; [lia|]. auto.
Qed.

Lemma push {A} (a : list (option A)) l x : length l < length a -> firstn (length l) a = map Some l ->
  exists a', set a (length l) (Some x) = Ok a' /\ length a' = length a /\ firstn (length (l ++ [x])) a' = map Some (l ++ [x]).
Proof.
  intros L F. destruct (set_total a (length l) (Some x) L) as [a' E]. destruct (firstn_set _ _ _ _ E L) as [La Fa].
  exists a'. split; [exact E|]. split; [exact La|]. rewrite app_length, map_app. cbn [length map]. rewrite Nat.add_1_r, Fa, F. reflexivity.
Qed.

(** * finding a group *)
Lemma find_ok sc gs name : entries sc gs -> forall k i, i + k = length gs ->
  find_grp sc name k i = Ok None /\ (forall j g, nth_error gs j = Some g -> i <= j -> g_name g <> name)
  \/ exists j g, find_grp sc name k i = Ok (Some j) /\ nth_error gs j = Some g /\ i <= j /\ g_name g = name
       /\ (forall j' g', nth_error gs j' = Some g' -> i <= j' < j -> g_name g' <> name).
Proof.
  intros H. induction k; intros i E; cbn [find_grp].
  - left. split; [reflexivity|]. intros j g Hj L. assert (j < length gs) by (apply nth_error_Some; congruence). lia.
  - destruct (nth_error gs i) as [g|] eqn:G; [|apply nth_error_None in G; lia].
    rewrite (get_entry _ _ _ _ H G). cbn [rbind]. destruct (same name (g_name g)) eqn:Q.
    + apply same_iff in Q. right. exists i, g. repeat split; auto. intros; lia.
    + apply same_false in Q. destruct (IHk (i + 1)) as [[R N]|(j & g' & R & Hj & Le & Nm & Before)]; [lia| |]; rewrite R.
      * left. split; [reflexivity|]. intros j g' Hj L. destruct (Nat.eq_dec i j) as [<-|]; [congruence|]. apply N with (j := j); [exact Hj|lia].
      * right. exists j, g'. repeat split; auto; [lia|]. intros j' g'' Hj' L. destruct (Nat.eq_dec i j') as [<-|]; [congruence|].
        apply Before with (j' := j'); [exact Hj'|lia].
Qed.

(** * counting *)
Lemma number_app e l l' : number e (l ++ l') = number e l + number e l'.
Proof. unfold number. rewrite filter_app, app_length. reflexivity. Qed.
Lemma zsum_app l l' : zsum (l ++ l') = (zsum l + zsum l')%Z.
Proof. induction l; cbn [zsum app]; lia. Qed.
Lemma ref_weight_app l l' : ref_weight (l ++ l') = (ref_weight l + ref_weight l')%Z.
Proof. unfold ref_weight. rewrite map_app. apply zsum_app. Qed.
Lemma hyp_weight_app l l' : hyp_weight (l ++ l') = (hyp_weight l + hyp_weight l')%Z.
Proof. unfold hyp_weight. rewrite map_app. apply zsum_app. Qed.
Lemma of_eval_app e l l' : of_eval e (l ++ l') = of_eval e l ++ of_eval e l'.
Proof. apply filter_app. Qed.

(** the group with the steps [l] counted *)
Definition counted (g : grp) (l : list wstep) : grp :=
  {| g_name := g_name g; g_corr := g_corr g + number PCorr l; g_ins := g_ins g + number PIns l;
     g_del := g_del g + number PDel l; g_sub := g_sub g + number PSub l;
     g_wref := (g_wref g + ref_weight l)%Z; g_wcorr := (g_wcorr g + hyp_weight (of_eval PCorr l))%Z;
     g_wins := (g_wins g + hyp_weight (of_eval PIns l))%Z; g_wdel := (g_wdel g + ref_weight (of_eval PDel l))%Z;
     g_wsub := (g_wsub g + (ref_weight (of_eval PSub l) + hyp_weight (of_eval PSub l)))%Z;
     g_nsent := g_nsent g; g_serr := g_serr g; g_path := g_path g |}.
Definition bad_step (s : wstep) : bool := match snd s with PCorr => false | _ => true end.

Lemma counted_nil g : counted g [] = g.
Proof. destruct g as [a1 a2 a3 a4 a5 a6 a7 a8 a9 b1 b2 b3 b4]. unfold counted, number, ref_weight, hyp_weight, of_eval. cbn [filter length map zsum g_name g_corr g_ins g_del g_sub g_wref g_wcorr g_wins g_wdel g_wsub g_nsent g_serr g_path]. f_equal; lia. Qed.
Lemma counted_app g l l' : counted (counted g l) l' = counted g (l ++ l').
Proof.
  unfold counted. cbn [g_name g_corr g_ins g_del g_sub g_wref g_wcorr g_wins g_wdel g_wsub g_nsent g_serr g_path].
  rewrite !number_app, !of_eval_app, !ref_weight_app, !hyp_weight_app. f_equal; lia.
Qed.
Lemma count_step_ok g s : well_formed_step s -> count_step g s = Ok (counted g [s], bad_step s).
Proof.
  destruct s as [[a b] e]. destruct e; cbn [well_formed_step]; intros [Ha Hb]; destruct a as [a|], b as [b|]; try congruence; try contradiction;
    try discriminate; cbn [count_step weight_of rbind]; unfold counted, number, ref_weight, hyp_weight, of_eval, bad_step;
    cbn [filter is_eval snd fst length map zsum wt]; repeat f_equal; lia.
Qed.
Lemma count_steps_ok l : Forall well_formed_step l -> forall g err, count_steps g err l = Ok (counted g l, err || existsb bad_step l).
Proof.
  induction 1 as [|s l Hs Hl IH]; intros g err; cbn [count_steps existsb].
  - rewrite counted_nil, orb_false_r. reflexivity.
  - rewrite count_step_ok by exact Hs. cbn [rbind]. rewrite IH, counted_app, orb_assoc. reflexivity.
Qed.
Lemma bad_wrong x : existsb bad_step (s_steps x) = true <-> wrong x.
Proof.
  unfold wrong. rewrite existsb_exists. split; intros (s & I & H); exists s; split; auto; unfold bad_step in *; destruct (snd s); congruence.
Qed.

(** * one call *)
Definition inv (g : grp) (cs : list call) : Prop := totals g cs /\ room (g_path g) (kept_sentences cs).

Lemma all_steps_app a b : all_steps (a ++ b) = all_steps a ++ all_steps b.
Proof. unfold all_steps. rewrite map_app, concat_app. reflexivity. Qed.
Lemma count_app {A} (P : A -> Prop) l l' k k' : count_of P l k -> count_of P l' k' -> count_of P (l ++ l') (k + k').
Proof. induction 1; intros H'; cbn; auto; constructor; auto. Qed.

Lemma inv_new n : inv (new_grp n) [].
Proof. split; [constructor; try reflexivity; constructor|]. apply room_init. lia. Qed.

Lemma add_inv (sc : scores) gs i g cs c : room sc gs -> nth_error gs i = Some g -> inv g cs -> Forall well_formed_step (s_steps (sentence_of c)) ->
  exists sc' gs' g' l1 l2, add_path_score sc (sentence_of c) i (kept_of c) = Ok sc' /\ room sc' gs'
    /\ gs = l1 ++ g :: l2 /\ length l1 = i /\ gs' = l1 ++ g' :: l2 /\ g_name g' = g_name g /\ inv g' (cs ++ [c]).
Proof.
  intros (R & Lr & Mr) Hg [T K] W. unfold add_path_score. rewrite (get_entry _ _ _ _ R Hg). cbn [rbind].
  rewrite count_steps_ok by exact W. cbn [rbind]. rewrite orb_false_l.
  assert (KP : exists p, (if kept_of c then keep_path (g_path (counted g (s_steps (sentence_of c)))) (sentence_of c) else Ok (g_path (counted g (s_steps (sentence_of c))))) = Ok p
     /\ room p (kept_sentences (cs ++ [c]))).
  { unfold kept_sentences. rewrite filter_app, map_app. cbn [filter]. cbn [counted g_path]. destruct K as (K & Lk & Mk). destruct (kept_of c).
    - unfold keep_path. destruct (grow (g_path g) _ 2 1 K) as (a & Ea & La & Ma & Fa); [lia|lia|rewrite Nat.div_1_r; lia|].
      rewrite Ea. cbn [rbind]. destruct K as [Nk Fk]. rewrite Nk. fold (kept_sentences cs).
      destruct (push a (kept_sentences cs) (sentence_of c)) as (a' & E' & La' & Fa'); [lia|exact Fa|]. rewrite E'. cbn [rbind].
      eexists. split; [reflexivity|]. unfold room, entries. cbn [p_num p_pset map]. split; [split; [rewrite app_length; reflexivity|exact Fa']|].
      rewrite app_length, La'. cbn [length]. lia.
    - eexists. split; [reflexivity|]. cbn [map]. rewrite app_nil_r. unfold room. auto. }
  destruct KP as (p & -> & Rp). cbn [rbind].
  assert (Hi : i < length gs) by (apply nth_error_Some; congruence).
  match goal with |- context [set _ _ (Some ?x)] => set (g' := x) end.
  destruct R as [N F]. destruct (firstn_set_in Some (p_pset sc) gs i g' F Hi) as (a & Es & La & l1 & x & l2 & El & Ll & Fa).
  rewrite Es. cbn [rbind]. assert (x = g). { rewrite El, nth_error_app2 in Hg by lia. rewrite Ll, Nat.sub_diag in Hg. cbn in Hg. congruence. } subst x.
  assert (Lg : length gs = length (l1 ++ g' :: l2)) by (rewrite El, !app_length; reflexivity).
  eexists _, (l1 ++ g' :: l2), g', l1, l2. split; [reflexivity|]. split.
  { unfold room, entries. cbn [p_num p_pset]. rewrite <- Lg. split; [split; [exact N|exact Fa]|]. lia. }
  split; [exact El|]. split; [exact Ll|]. split; [reflexivity|]. split; [reflexivity|].
  assert (AS : all_steps [c] = s_steps (sentence_of c)) by (unfold all_steps; cbn [map concat]; apply app_nil_r).
  split; [|exact Rp]. destruct T. unfold g'. constructor; cbn [g_corr g_sub g_ins g_del g_wref g_wcorr g_wins g_wdel g_wsub g_nsent g_serr counted];
    rewrite ?all_steps_app, ?number_app, ?of_eval_app, ?ref_weight_app, ?hyp_weight_app, ?AS; try lia.
  - rewrite app_length. cbn [length]. lia.
  - apply count_app; [assumption|]. destruct (existsb bad_step _) eqn:B.
    + apply co_yes; [|constructor]. apply bad_wrong. exact B.
    + apply co_no; [|constructor]. intros Wr. apply bad_wrong in Wr. congruence.
Qed.

(** * histories *)
Lemma in_speakers cs : forall n, In n (speakers cs) <-> exists c, In c cs /\ speaker_of c = n.
Proof.
  induction cs as [|c cs IH]; intros n; cbn [speakers In]; [split; [tauto|intros (? & [] & _)]|]. rewrite filter_In, IH. split.
  - intros [<-|((c' & I & E) & _)]; [exists c; auto|exists c'; auto].
  - intros (c' & [<-|I] & E); [auto|]. destruct (list_eq_dec N.eq_dec (speaker_of c) n); [auto|]. right. split; [exists c'; auto|].
    apply negb_true_iff. apply same_false. exact n0.
Qed.
Lemma speakers_snoc cs c : speakers (cs ++ [c]) = if existsb (same (speaker_of c)) (speakers cs) then speakers cs else speakers cs ++ [speaker_of c].
Proof.
  induction cs as [|d cs IH]; [reflexivity|]. cbn [app speakers existsb]. rewrite IH.
  destruct (same (speaker_of c) (speaker_of d)) eqn:E; cbn [orb].
  - apply same_iff in E. destruct (existsb _ (speakers cs)); [reflexivity|]. rewrite filter_app. cbn [filter]. rewrite E, same_refl. cbn [negb]. rewrite app_nil_r. reflexivity.
  - apply same_false in E.
    assert (X : existsb (same (speaker_of c)) (filter (fun n => negb (same (speaker_of d) n)) (speakers cs)) = existsb (same (speaker_of c)) (speakers cs)).
    { clear IH. induction (speakers cs) as [|n l IHl]; [reflexivity|]. cbn [filter existsb].
      destruct (same (speaker_of d) n) eqn:Q; cbn [negb existsb]; rewrite IHl; [|reflexivity].
      apply same_iff in Q. subst n. replace (same (speaker_of c) (speaker_of d)) with false by (symmetry; apply same_false; exact E). reflexivity. }
    rewrite X. destruct (existsb _ _); [reflexivity|]. rewrite filter_app. cbn [filter].
    replace (same (speaker_of d) (speaker_of c)) with false by (symmetry; apply same_false; congruence). reflexivity.
Qed.
Lemma calls_of_app n a b : calls_of n (a ++ b) = calls_of n a ++ calls_of n b.
Proof. apply filter_app. Qed.

Lemma speakers_nodup cs : NoDup (speakers cs).
Proof.
  induction cs as [|c cs IH]; cbn [speakers]; [constructor|]. constructor.
  - rewrite filter_In. rewrite same_refl. intros [_ H]. discriminate.
  - apply NoDup_filter. exact IH.
Qed.

Definition state_ok (sc : scores) (cs : list call) : Prop :=
  exists gs, room sc gs /\ map g_name gs = speakers cs /\ Forall (fun g => inv g (calls_of (g_name g) cs)) gs.

Lemma step_ok sc cs c : state_ok sc cs -> Forall well_formed_step (s_steps (sentence_of c)) ->
  exists sc1 i sc2, get_grp sc (speaker_of c) = Ok (sc1, i) /\ add_path_score sc1 (sentence_of c) i (kept_of c) = Ok sc2 /\ state_ok sc2 (cs ++ [c]).
Proof.
  intros (gs & R & Nm & F) W.
  assert (Pre : exists sc1 i gs1 g, get_grp sc (speaker_of c) = Ok (sc1, i) /\ room sc1 gs1 /\ map g_name gs1 = speakers (cs ++ [c])
     /\ nth_error gs1 i = Some g /\ g_name g = speaker_of c /\ inv g (calls_of (g_name g) cs)
     /\ Forall (fun g => inv g (calls_of (g_name g) cs)) gs1).
  { unfold get_grp. destruct R as (R & Lr & Mr). assert (N : p_num sc = length gs) by apply R. rewrite N.
    rewrite speakers_snoc.
    destruct (find_ok sc gs (speaker_of c) R (length gs) 0 eq_refl) as [[E Abs]|(j & g & E & Hj & _ & Gn & _)]; rewrite E; cbn [rbind].
    - rewrite <- N. destruct (grow sc gs 3 2 R) as (a & Ea & La & Ma & Fa); [lia|lia| |].
      { assert (length (p_pset sc) + 10 <= length (p_pset sc) * 3 / 2). { apply Nat.div_le_lower_bound; lia. } lia. }
      rewrite Ea. cbn [rbind]. rewrite N. destruct (push a gs (new_grp (speaker_of c))) as (a' & Es & La' & Fa'); [lia|exact Fa|].
      rewrite Es. cbn [rbind]. eexists _, (length gs), (gs ++ [new_grp (speaker_of c)]), (new_grp (speaker_of c)).
      split; [reflexivity|]. split.
      { unfold room, entries. cbn [p_num p_pset]. split; [split; [rewrite app_length; reflexivity|exact Fa']|]. rewrite app_length. cbn [length]. lia. }
      assert (X : existsb (same (speaker_of c)) (speakers cs) = false).
      { apply not_true_is_false. intros X. apply existsb_exists in X. destruct X as (n & I & Q). apply same_iff in Q. subst n. rewrite <- Nm in I.
        apply in_map_iff in I. destruct I as (g & Gn & I). apply In_nth_error in I. destruct I as [j Hj]. apply (Abs j g Hj); [lia|exact Gn]. }
      assert (None' : calls_of (speaker_of c) cs = []).
      { unfold calls_of. destruct (filter _ cs) as [|d l] eqn:Q; [reflexivity|exfalso]. assert (I : In d (filter (fun c0 => same (speaker_of c) (speaker_of c0)) cs)) by (rewrite Q; left; reflexivity).
        apply filter_In in I. destruct I as [I S]. assert (K : existsb (same (speaker_of c)) (speakers cs) = true); [|congruence].
        apply existsb_exists. exists (speaker_of d). split; [apply in_speakers; exists d; auto|exact S]. }
      rewrite X. split; [rewrite map_app, Nm; reflexivity|]. split; [rewrite nth_error_app2, Nat.sub_diag by lia; reflexivity|].
      split; [reflexivity|]. cbn [g_name new_grp]. rewrite None'. split; [apply inv_new|]. apply Forall_app. split; [exact F|].
      constructor; [|constructor]. cbn [g_name new_grp]. rewrite None'. apply inv_new.
    - assert (X : existsb (same (speaker_of c)) (speakers cs) = true).
      { apply existsb_exists. exists (g_name g). split; [|apply same_iff; congruence]. rewrite <- Nm. apply in_map. eapply nth_error_In; eassumption. }
      rewrite X. exists sc, j, gs, g. split; [reflexivity|]. split; [unfold room; auto|]. split; [exact Nm|]. split; [exact Hj|]. split; [exact Gn|].
      split; [|exact F]. rewrite Forall_forall in F. apply F. eapply nth_error_In; eassumption. }
  destruct Pre as (sc1 & i & gs1 & g & E & R1 & Nm1 & Hg & Gn & Ig & F1). exists sc1, i.
  destruct (add_inv sc1 gs1 i g _ c R1 Hg Ig W) as (sc2 & gs2 & g' & l1 & l2 & E2 & R2 & El & Ll & El2 & Gn' & Ig').
  exists sc2. split; [exact E|]. split; [exact E2|]. exists gs2. split; [exact R2|]. subst gs1 gs2. split.
  { rewrite <- Nm1, !map_app. cbn [map]. rewrite Gn'. reflexivity. }
  assert (ND : NoDup (map g_name (l1 ++ g :: l2))) by (rewrite Nm1; apply speakers_nodup).
  rewrite map_app in ND. cbn [map] in ND. apply NoDup_remove_2 in ND.
  assert (Other : forall h, In h l1 \/ In h l2 -> inv h (calls_of (g_name h) (cs ++ [c]))).
  { intros h I. rewrite calls_of_app. unfold calls_of at 2. cbn [filter].
    replace (same (g_name h) (speaker_of c)) with false.
    - rewrite app_nil_r. rewrite Forall_forall in F1. apply F1. apply in_or_app. destruct I; [left|right; right]; assumption.
    - symmetry. apply same_false. intros Q. apply ND. rewrite Gn, <- Q. apply in_or_app. destruct I; [left|right]; apply in_map; assumption. }
  apply Forall_app. split; [|constructor].
  - apply Forall_forall. auto.
  - rewrite Gn', calls_of_app. unfold calls_of at 2. cbn [filter].
    replace (same (g_name g) (speaker_of c)) with true by (symmetry; apply same_iff; exact Gn). exact Ig'.
  - apply Forall_forall. auto.
Qed.

Lemma state_init ngrp : state_ok (scores_init ngrp) [].
Proof. exists []. split; [|split; [reflexivity|constructor]]. unfold scores_init. apply room_init. destruct (Z.ltb_spec ngrp 20); lia. Qed.

Lemma calls_ok : forall cs sc done, state_ok sc done -> Forall (fun c => Forall well_formed_step (s_steps (sentence_of c))) cs ->
  exists sc', score_calls sc cs = Ok sc' /\ state_ok sc' (done ++ cs).
Proof.
  induction cs as [|c cs IH]; intros sc done H W.
  - exists sc. rewrite app_nil_r. auto.
  - inversion W as [|? ? Wc Wcs]; subst. destruct (step_ok sc done c H Wc) as (sc1 & i & sc2 & E1 & E2 & H2).
    destruct (IH sc2 (done ++ [c]) H2 Wcs) as (sc' & E & H'). exists sc'. rewrite <- app_assoc in H'. split; [|exact H'].
    destruct c as [[n x] k]. cbn [score_calls]. cbn [speaker_of sentence_of kept_of fst snd] in *. rewrite E1. cbn [rbind]. rewrite E2. exact E.
Qed.
