(** Proofs about the normalised cross entropy. *)
From Coq Require Import List QArith Reals Qreals Arith Bool Lra Lia Permutation.
From Verif Require Import Nce_Model Nce_Spec.
Import ListNotations.
Local Open Scope R_scope.

Lemma rsum_app a b : rsum (a ++ b) = rsum a + rsum b.
Proof. induction a as [|x a IH]; cbn [rsum app]; [|rewrite IH]; lra. Qed.
Lemma rsum_perm a b : Permutation a b -> rsum a = rsum b.
Proof. induction 1; cbn [rsum]; lra. Qed.

(** ** clipping *)
Lemma qle_f a b : Qle_bool a b = false -> (b <= a)%Q.
Proof. intro H. apply Qlt_le_weak, Qnot_le_lt. intro L. apply Qle_bool_iff in L. congruence. Qed.
Lemma used_clip x : used x (Q2R (clip x)).
Proof.
  unfold used, clip. fold low high. destruct (Qle_bool low x) eqn:A; cbn [negb].
  - apply Qle_bool_iff in A. destruct (Qle_bool x high) eqn:B; cbn [negb].
    + apply Qle_bool_iff in B. right. left. auto.
    + right. right. split; [apply qle_f, B|reflexivity].
  - left. split; [apply qle_f, A|reflexivity].
Qed.
Lemma low_high : (low < high)%Q. Proof. reflexivity. Qed.
Lemma used_fun x r r' : used x r -> used x r' -> r = r'.
Proof.
  assert (LH := low_high).
  assert (E : forall a b, (a <= b)%Q -> (b <= a)%Q -> Q2R a = Q2R b) by (intros a b A B; apply Qeq_eqR, Qle_antisym; assumption).
  intros [(A & ->)|[((A & A') & ->)|(A & ->)]] [(B & ->)|[((B & B') & ->)|(B & ->)]]; try reflexivity; try (apply E; eauto using Qle_trans; fail);
  exfalso; apply (Qlt_not_le _ _ LH); eauto using Qle_trans.
Qed.
Lemma used_iff x r : used x r <-> r = Q2R (clip x).
Proof. split; [intro U; apply (used_fun x); [exact U|apply used_clip]|intros ->; apply used_clip]. Qed.
Lemma used_list l rs : Forall2 used l rs <-> rs = map (fun x => Q2R (clip x)) l.
Proof.
  split.
  - induction 1 as [|x r l rs U _ IH]; [reflexivity|]. cbn [map]. apply used_iff in U. congruence.
  - intros ->. induction l; constructor; [apply used_clip|assumption].
Qed.
Lemma low_val : Q2R low = / 10000000. Proof. unfold low, Q2R. cbn. lra. Qed.
Lemma high_val : Q2R high = 9999999 / 10000000. Proof. unfold high, Q2R. cbn. lra. Qed.
Lemma used_bounds x r : used x r -> / 10000000 <= r <= 9999999 / 10000000.
Proof.
  pose proof low_val as LV. pose proof high_val as HV. intros [(A & ->)|[((A & A') & ->)|(A & ->)]]; try lra.
  apply Qle_Rle in A, A'. lra.
Qed.
Lemma used_mono x y r s : used x r -> used y s -> (x <= y)%Q -> r <= s.
Proof.
  intros U V L. assert (LH := low_high). pose proof (used_bounds _ _ U) as BU. pose proof (used_bounds _ _ V) as BV.
  destruct V as [(B & ->)|[((B & B') & ->)|(B & ->)]].
  - assert (E : used x (Q2R low)) by (left; split; [eapply Qle_trans; eassumption|reflexivity]). rewrite (used_fun _ _ _ U E). lra.
  - destruct U as [(A & ->)|[((A & A') & ->)|(A & ->)]].
    + apply Qle_Rle, B.
    + apply Qle_Rle, L.
    + apply Qle_Rle. eapply Qle_trans; eassumption.
  - rewrite high_val. lra.
Qed.

(** ** logarithms *)
Lemma ln2_pos : 0 < ln 2. Proof. rewrite <- ln_1. apply ln_increasing; lra. Qed.
Lemma log2e_log2 x : ln x * log2e = log2 x. Proof. reflexivity. Qed.
Lemma log2_neg x : 0 < x < 1 -> log2 x < 0.
Proof.
  intros (A & B). unfold log2. assert (L : ln x < 0) by (rewrite <- ln_1; apply ln_increasing; lra). pose proof ln2_pos as P.
  unfold Rdiv. pose proof (Rinv_0_lt_compat _ P). nra.
Qed.
Lemma log2_mono x y : 0 < x -> x <= y -> log2 x <= log2 y.
Proof.
  intros A [B| ->]; [|lra]. unfold log2, Rdiv. pose proof (ln_increasing x y A B). pose proof (Rinv_0_lt_compat _ ln2_pos). nra.
Qed.
Lemma log2_strict x y : 0 < x -> x < y -> log2 x < log2 y.
Proof.
  intros A B. unfold log2, Rdiv. pose proof (ln_increasing x y A B). pose proof (Rinv_0_lt_compat _ ln2_pos). nra.
Qed.
Lemma share n m : (0 < n)%nat -> (0 < m)%nat -> 0 < INR n / (INR n + INR m) < 1.
Proof.
  intros A B. apply lt_0_INR in A, B. split; [apply Rdiv_lt_0_compat; lra|]. apply (Rmult_lt_reg_r (INR n + INR m)); [lra|].
  unfold Rdiv. rewrite Rmult_assoc, Rinv_l by lra. lra.
Qed.
Lemma bits_pos n m : (0 < n)%nat -> (0 < m)%nat -> 0 < bits n m.
Proof.
  intros A B. pose proof (share n m A B) as S. unfold bits. cbv zeta. set (p := INR n / (INR n + INR m)) in *. apply lt_0_INR in A, B.
  pose proof (log2_neg p S). pose proof (log2_neg (1 - p) ltac:(lra)). nra.
Qed.

(** ** the loops *)
Definition lc (t : step) : R := log2 (Q2R (clip (t_conf t))).
Definition li (t : step) : R := log2 (1 - Q2R (clip (t_conf t))).
Definition wrong (t : step) : bool := negb (right t).
Lemma out_bool x : (negb (Qle_bool 0 x) || negb (Qle_bool x 1) = negb (Qle_bool 0 x && Qle_bool x 1))%bool.
Proof. rewrite negb_andb. reflexivity. Qed.
Definition after (s : state) (ws : list step) : state :=
  {| a_words := a_words s + length ws; a_corr := a_corr s + rsum (map lc (filter right ws));
     a_inc := a_inc s + rsum (map li (filter wrong ws)); a_out := a_out s + length (filter outside ws) |}.
Lemma after_eq s ws n c i o : n = (a_words s + length ws)%nat -> c = a_corr s + rsum (map lc (filter right ws)) ->
  i = a_inc s + rsum (map li (filter wrong ws)) -> o = (a_out s + length (filter outside ws))%nat ->
  {| a_words := n; a_corr := c; a_inc := i; a_out := o |} = after s ws.
Proof. intros -> -> -> ->. reflexivity. Qed.
Lemma after_app s a b : after (after s a) b = after s (a ++ b).
Proof. apply after_eq; cbn [after a_words a_corr a_inc a_out]; rewrite ?filter_app, ?map_app, ?rsum_app, ?app_length; lia || lra. Qed.
Lemma step_ok s t : add_step s t = after s (filter scored [t]).
Proof.
  cbn [filter]. unfold add_step, scored. destruct t as [v e c]. cbn [t_eval t_empty t_conf].
  assert (N : s = after s []). { destruct s. apply after_eq; cbn; lia || lra. }
  destruct v; cbn [negb]; try exact N; (destruct e; cbn [negb]; [exact N|]); rewrite out_bool;
  (apply after_eq; cbn [filter length map rsum right wrong negb t_eval]; unfold wrong, right, outside; cbn [t_eval t_conf negb map rsum];
   [lia| | |destruct (negb (Qle_bool 0 c && Qle_bool c 1)); cbn [length]; lia]); unfold lc, li; cbn [t_conf]; rewrite ?log2e_log2; lra.
Qed.
Lemma steps_ok l : forall s, fold_left add_step l s = after s (filter scored l).
Proof.
  induction l as [|t l IH]; intro s; cbn [fold_left].
  - destruct s. apply after_eq; cbn; lia || lra.
  - rewrite IH, step_ok, after_app, <- filter_app. reflexivity.
Qed.
Lemma paths_ok ps : forall s, add_paths s ps = after s (filter scored (concat ps)).
Proof.
  unfold add_paths. induction ps as [|p ps IH]; intro s; cbn [fold_left concat].
  - destruct s. apply after_eq; cbn; lia || lra.
  - rewrite IH, steps_ok, after_app, <- filter_app. reflexivity.
Qed.
Lemma words_one g : words [g] = filter scored (concat (u_paths g)).
Proof. unfold words. cbn [map concat]. rewrite app_nil_r. reflexivity. Qed.
Lemma words_cons g gs : words (g :: gs) = words [g] ++ words gs.
Proof. rewrite words_one. unfold words. cbn [map concat]. rewrite concat_app, filter_app. reflexivity. Qed.
Lemma correct_cons g gs : correct (g :: gs) = correct [g] ++ correct gs.
Proof. unfold correct. rewrite words_cons, filter_app, map_app. reflexivity. Qed.
Lemma incorrect_cons g gs : incorrect (g :: gs) = incorrect [g] ++ incorrect gs.
Proof. unfold incorrect. rewrite words_cons, filter_app, map_app. reflexivity. Qed.

Definition sc (l : list Q) : R := rsum (map (fun x => log2 (Q2R (clip x))) l).
Definition si (l : list Q) : R := rsum (map (fun x => log2 (1 - Q2R (clip x))) l).
Lemma is_nce_iff cs is x : is_nce cs is x <-> x = (bits (length cs) (length is) + sc cs + si is) / bits (length cs) (length is).
Proof.
  unfold is_nce, sc, si. split.
  - intros (rc & ri & A & B & ->). apply used_list in A, B. subst. rewrite !map_map. reflexivity.
  - intros ->. exists (map (fun x => Q2R (clip x)) cs), (map (fun x => Q2R (clip x)) is). rewrite !used_list, !map_map. auto.
Qed.
Lemma entropy_ok n m : entropy n m = if (n =? 0)%nat || (m =? 0)%nat then None else Some (bits n m).
Proof.
  unfold entropy. destruct (_ || _); [reflexivity|]. cbv zeta. f_equal. unfold bits. cbv zeta. rewrite plus_INR, (Rplus_comm (INR m)).
  rewrite <- !log2e_log2. ring.
Qed.
Lemma quotient_ok n m cs is : n = length cs -> m = length is -> value_of cs is (quotient (entropy n m) (sc cs) (si is)).
Proof.
  intros -> ->. rewrite entropy_ok. destruct cs as [|c cs]; [left; reflexivity|]. destruct is as [|i is]; [right; reflexivity|].
  cbn [length Nat.eqb orb quotient value_of]. split; [discriminate|]. split; [discriminate|]. apply is_nce_iff. reflexivity.
Qed.
Lemma sc_map ws : rsum (map lc (filter right ws)) = sc (map t_conf (filter right ws)).
Proof. unfold sc. rewrite map_map. reflexivity. Qed.
Lemma si_map ws : rsum (map li (filter wrong ws)) = si (map t_conf (filter (fun t => negb (right t)) ws)).
Proof. unfold si. rewrite map_map. reflexivity. Qed.
Lemma sc_app a b : sc (a ++ b) = sc a + sc b. Proof. unfold sc. rewrite map_app. apply rsum_app. Qed.
Lemma si_app a b : si (a ++ b) = si a + si b. Proof. unfold si. rewrite map_app. apply rsum_app. Qed.
Lemma speakers_ok gs : Forall consistent gs -> forall c i o, exists l,
  speakers gs c i o = (l, c + sc (correct gs), i + si (incorrect gs), (o + length (filter outside (words gs)))%nat) /\ Forall2 speaker_value gs l.
Proof.
  induction 1 as [|g gs (C1 & C2) _ IH]; intros c i o.
  - exists []. split; [|constructor]. cbn [speakers]. unfold correct, incorrect, words, sc, si. cbn. rewrite !Rplus_0_r, Nat.add_0_r. reflexivity.
  - cbn [speakers]. rewrite paths_ok, <- words_one. cbn [after a_words a_corr a_inc a_out]. cbn [plus].
    rewrite sc_map, si_map. fold (correct [g]) (incorrect [g]).
    rewrite (correct_cons g gs), (incorrect_cons g gs), sc_app, si_app, (words_cons g gs), filter_app, app_length.
    destruct (words [g]) as [|w ws] eqn:EW; cbn [length Nat.ltb Nat.leb].
    + match goal with |- context [speakers gs ?a ?b ?d] => destruct (IH a b d) as (l & -> & F) end. exists (Some 0 :: l). split; [|constructor; [left; auto|exact F]].
      assert (E1 : correct [g] = []) by (unfold correct; rewrite EW; reflexivity). assert (E2 : incorrect [g] = []) by (unfold incorrect; rewrite EW; reflexivity).
      rewrite E1, E2. unfold sc at 2. unfold si at 2. cbn [map rsum filter length]. rewrite !Rplus_0_l, Nat.add_0_r. reflexivity.
    + match goal with |- context [speakers gs ?a ?b ?d] => destruct (IH a b d) as (l & -> & F) end. rewrite !Rplus_0_l.
      exists (quotient (entropy (u_corr g) (u_sub g + u_ins g)) (sc (correct [g])) (si (incorrect [g])) :: l).
      split; [rewrite !Rplus_assoc, Nat.add_assoc; reflexivity|]. constructor; [|exact F]. right. split; [rewrite EW; discriminate|].
      apply quotient_ok; assumption.
Qed.
Lemma totals gs : Forall consistent gs -> list_sum (map u_corr gs) = length (correct gs) /\
  (list_sum (map u_sub gs) + list_sum (map u_ins gs))%nat = length (incorrect gs).
Proof.
  induction 1 as [|g gs (C1 & C2) _ (I1 & I2)]; [split; reflexivity|].
  rewrite (correct_cons g gs), (incorrect_cons g gs), !app_length, <- C1, <- C2, <- I1, <- I2. cbn [map]. change (list_sum (?a :: ?l)) with (a + list_sum l)%nat. split; [reflexivity|]. cbn. lia.
Qed.
Lemma parts ws : length ws = (length (filter right ws) + length (filter (fun t => negb (right t)) ws))%nat.
Proof. induction ws as [|w ws IH]; [reflexivity|]. cbn [filter length]. destruct (right w); cbn [negb length]; lia. Qed.

(** ** bounds *)
Lemma clip_bounds x : 0 < Q2R (clip x) < 1.
Proof. pose proof (used_bounds x _ (used_clip x)). lra. Qed.
Lemma sc_neg cs : cs <> [] -> sc cs < 0.
Proof.
  assert (K : forall cs, sc cs <= 0). { induction cs0 as [|c l IH]; unfold sc; cbn [map rsum]; [lra|]. fold (sc l). pose proof (log2_neg _ (clip_bounds c)). lra. }
  destruct cs as [|c l]; [congruence|]. intros _. unfold sc. cbn [map rsum]. fold (sc l). pose proof (log2_neg _ (clip_bounds c)). pose proof (K l). lra.
Qed.
Lemma si_neg cs : cs <> [] -> si cs < 0.
Proof.
  assert (B : forall c, log2 (1 - Q2R (clip c)) < 0) by (intro c; apply log2_neg; pose proof (clip_bounds c); lra).
  assert (K : forall cs, si cs <= 0). { induction cs0 as [|c l IH]; unfold si; cbn [map rsum]; [lra|]. fold (si l). pose proof (B c). lra. }
  destruct cs as [|c l]; [congruence|]. intros _. unfold si. cbn [map rsum]. fold (si l). pose proof (B c). pose proof (K l). lra.
Qed.
Lemma len_pos {A} (l : list A) : l <> [] -> (0 < length l)%nat.
Proof. destruct l; [congruence|cbn; lia]. Qed.
Lemma div_le h a b : 0 < h -> a <= b -> a / h <= b / h.
Proof. intros H L. unfold Rdiv. apply Rmult_le_compat_r; [left; apply Rinv_0_lt_compat, H|exact L]. Qed.
Lemma div_lt h a b : 0 < h -> a < b -> a / h < b / h.
Proof. intros H L. unfold Rdiv. apply Rmult_lt_compat_r; [apply Rinv_0_lt_compat, H|exact L]. Qed.
Lemma ln_le x : 0 < x -> ln x <= x - 1.
Proof.
  intro P. destruct (Req_dec x 1) as [->|N]; [rewrite ln_1; lra|].
  assert (E : x = exp (ln x)) by (symmetry; apply exp_ln, P). pose proof (exp_ineq1_le (ln x)). lra.
Qed.
Lemma ln_lt x : 0 < x -> x <> 1 -> ln x < x - 1.
Proof.
  intros P N. assert (E : x = exp (ln x)) by (symmetry; apply exp_ln, P).
  assert (Z : ln x <> 0) by (intro Z; rewrite Z, exp_0 in E; lra). pose proof (exp_ineq1 (ln x) Z). lra.
Qed.
Lemma ln_quot a b : 0 < a -> 0 < b -> ln (a / b) = ln a - ln b.
Proof. intros A B. unfold Rdiv. rewrite ln_mult; [|exact A|apply Rinv_0_lt_compat, B]. rewrite ln_Rinv by exact B. ring. Qed.
Lemma f2_len {A B} (P : A -> B -> Prop) l l' : Forall2 P l l' -> length l = length l'.
Proof. induction 1; cbn; congruence. Qed.
