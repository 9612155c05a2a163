(** Leaving out the speakers without reference words. *)
From Coq Require Import List ZArith QArith Lqa Lia Arith Bool Permutation Sorted.
From Verif Require Import Base Stats_Spec Order_Model Order_Spec Order_Proofs1 Order_Proofs3 Summ_Model Summ_Spec Summ_Proofs1.
Import ListNotations.
Local Open Scope nat_scope.

Notation pad := (-1000 # 1)%Q.
Lemma move_up_ok : forall rest a x, move_up (length rest) (length a) (a ++ x :: rest) = Ok (a ++ rest ++ [last rest x]).
Proof.
  induction rest as [|y r IH]; intros a x; [reflexivity|].
  cbn [length move_up]. rewrite get_mid1. cbn [rbind]. rewrite set_mid. cbn [rbind].
  replace (a ++ y :: y :: r) with ((a ++ [y]) ++ y :: r) by (rewrite <- app_assoc; reflexivity).
  replace (length a + 1) with (length (a ++ [y])) by (rewrite app_length; reflexivity).
  rewrite IH. rewrite <- app_assoc. cbn [app]. f_equal. f_equal. f_equal. f_equal. f_equal.
  destruct r as [|z r]; [reflexivity|]. change (last (y :: z :: r) x) with (last (z :: r) x). clear.
  revert z. induction r as [|w r IH]; intro z; [reflexivity|]. cbn [last]. destruct r; [reflexivity|]. apply (IH w).
Qed.
Lemma drop_one_ok a x rest : exists arr, move_up (length rest) (length a) (a ++ x :: rest) = Ok arr /\
  set arr (length a + length rest) pad = Ok (a ++ rest ++ [pad]).
Proof.
  eexists. split; [apply move_up_ok|]. rewrite app_assoc. rewrite <- app_length. rewrite set_mid. rewrite <- app_assoc. reflexivity.
Qed.

(** the places from the current one on *)
Fixpoint dz (wn : list nat) (rest : list Q) : list Q :=
  match wn, rest with
  | w :: r, x :: xs =>
      if w =? 0 then match xs ++ [pad] with y :: ys => y :: dz r ys | [] => [] end
      else x :: dz r xs
  | _, _ => rest
  end.
Lemma drop_zero_ok : forall wn a rest, length rest = length wn ->
  drop_zero wn (length a) (length a + length rest) (a ++ rest) = Ok (a ++ dz wn rest).
Proof.
  induction wn as [|w r IH]; intros a rest L.
  - destruct rest; [|discriminate]. reflexivity.
  - destruct rest as [|x xs]; [discriminate|]. cbn [length] in L. cbn [drop_zero dz].
    destruct (Nat.eqb_spec w 0) as [Z|Z].
    + replace (length a + length (x :: xs) - 1 - length a) with (length xs) by (cbn; lia).
      replace (length a + length (x :: xs) - 1) with (length a + length xs) by (cbn; lia).
      destruct (drop_one_ok a x xs) as (arr & E1 & E2). rewrite E1. cbn [rbind]. rewrite E2. cbn [rbind].
      destruct (xs ++ [pad]) as [|y ys] eqn:EX; [destruct xs; discriminate|].
      assert (LY : length ys = length xs) by (apply (f_equal (@length Q)) in EX; rewrite app_length in EX; cbn in EX; lia).
      replace (a ++ y :: ys) with ((a ++ [y]) ++ ys) by (rewrite <- app_assoc; reflexivity).
      replace (length a + 1) with (length (a ++ [y])) by (rewrite app_length; reflexivity).
      replace (length a + length (x :: xs)) with (length (a ++ [y]) + length ys) by (rewrite app_length; cbn; lia).
      rewrite IH by lia. rewrite <- app_assoc. reflexivity.
    + cbn [rbind]. replace (a ++ x :: xs) with ((a ++ [x]) ++ xs) by (rewrite <- app_assoc; reflexivity).
      replace (length a + 1) with (length (a ++ [x])) by (rewrite app_length; reflexivity).
      replace (length a + length (x :: xs)) with (length (a ++ [x]) + length xs) by (rewrite app_length; cbn; lia).
      rewrite IH by lia. rewrite <- app_assoc. reflexivity.
Qed.
Lemma drop_zero_0 wn arr : length arr = length wn -> drop_zero wn 0 (length arr) arr = Ok (dz wn arr).
Proof. intro L. exact (drop_zero_ok wn [] arr L). Qed.

Lemma drop_zero_gs (f : grp -> Q) gs : drop_zero (map word_num gs) 0 (length gs) (map f gs) = Ok (dz (map word_num gs) (map f gs)).
Proof. rewrite <- (drop_zero_0 (map word_num gs) (map f gs)) by (rewrite !map_length; reflexivity). rewrite map_length. reflexivity. Qed.

Lemma dz_prefix : forall k wn rest, length rest = length wn -> k <= length wn -> Forall (fun w => w <> 0) (firstn k wn) ->
  firstn k (dz wn rest) = firstn k rest.
Proof.
  induction k as [|k IH]; intros wn rest L K F; [reflexivity|].
  destruct wn as [|w wn]; [cbn in K; lia|]. destruct rest as [|x xs]; [discriminate|]. cbn [firstn] in F. inversion F; subst.
  cbn [dz]. destruct (Nat.eqb_spec w 0) as [Z|Z]; [congruence|]. cbn [firstn]. f_equal. apply IH; cbn in *; auto; lia.
Qed.
Lemma dz_app a b va vb : length va = length a -> Forall (fun w => w <> 0) a -> dz (a ++ b) (va ++ vb) = va ++ dz b vb.
Proof.
  revert va. induction a as [|w a IH]; intros [|x va] L F; try discriminate; [reflexivity|]. inversion F; subst.
  cbn [app dz]. destruct (Nat.eqb_spec w 0); [congruence|]. f_equal. apply IH; [cbn in L; lia|assumption].
Qed.
(** one gap in front *)
Lemma dz_gap b z x vb vz : length vb = length b -> length vz = length z -> Forall (fun w => w <> 0) b ->
  firstn (length vb) (dz (0 :: b ++ z) (x :: vb ++ vz)) = vb.
Proof.
  intros Lb Lz F. cbn [dz Nat.eqb]. destruct ((vb ++ vz) ++ [pad]) as [|y ys] eqn:E; [destruct (vb ++ vz); discriminate|].
  assert (LY : length ys = length (b ++ z)). { apply (f_equal (@length Q)) in E. rewrite !app_length in E. cbn in E. rewrite app_length. lia. }
  destruct vb as [|v vb]; [reflexivity|]. cbn [app] in E. injection E as <- E. cbn [length firstn]. f_equal.
  rewrite dz_prefix.
  - rewrite <- E, <- app_assoc, firstn_app. rewrite firstn_all, Nat.sub_diag. cbn [firstn]. apply app_nil_r.
  - exact LY.
  - rewrite app_length. cbn in Lb. lia.
  - cbn [length] in Lb. rewrite firstn_app. replace (length vb - length b) with 0 by lia. cbn [firstn]. rewrite app_nil_r.
    rewrite <- (firstn_skipn (length vb) b) in F. apply Forall_app in F. apply F.
Qed.

Lemma word_num_worded g : worded g = negb (word_num g =? 0).
Proof. reflexivity. Qed.
Lemma no_words_worded raw g : no_words raw g = negb raw && negb (worded g).
Proof.
  unfold no_words. rewrite word_num_worded, negb_involutive. destruct raw; [destruct (0 <? word_num g); reflexivity|].
  cbn [negb andb orb]. rewrite andb_true_r, orb_false_r. destruct (word_num g); reflexivity.
Qed.
Lemma worded_nonzero gs : forallb worded gs = true -> Forall (fun w => w <> 0) (map word_num gs).
Proof.
  intro H. rewrite forallb_forall in H. rewrite Forall_map, Forall_forall. intros g G. specialize (H g G).
  rewrite word_num_worded in H. apply negb_true_iff, Nat.eqb_neq in H. exact H.
Qed.
Lemma filter_all_true {A} (p : A -> bool) l : forallb p l = true -> filter p l = l.
Proof. induction l as [|x l IH]; [reflexivity|]. cbn [forallb filter]. intro H. apply andb_true_iff in H. destruct H as [-> H]. rewrite IH by exact H. reflexivity. Qed.
Lemma filter_all_false {A} (p : A -> bool) l : forallb (fun x => negb (p x)) l = true -> filter p l = [].
Proof. induction l as [|x l IH]; [reflexivity|]. cbn [forallb filter]. intro H. apply andb_true_iff in H. destruct H as [X H]. apply negb_true_iff in X. rewrite X. apply IH, H. Qed.
Lemma filter_count {A} (p : A -> bool) l : length (filter p l) + length (filter (fun x => negb (p x)) l) = length l.
Proof. induction l as [|x l IH]; [reflexivity|]. cbn [filter]. destruct (p x); cbn [negb length]; lia. Qed.

Lemma kept_values (f : grp -> Q) gs : one_gap gs ->
  firstn (length (filter worded gs)) (dz (map word_num gs) (map f gs)) = map f (filter worded gs).
Proof.
  intros (a & b & z & -> & A & Z & B).
  assert (LM : forall l : list grp, length (map f l) = length (map word_num l)) by (intro l; rewrite !map_length; reflexivity).
  rewrite !filter_app, (filter_all_true _ _ A), (filter_all_false _ _ Z), app_nil_r. rewrite !map_app.
  rewrite dz_app by (rewrite ?LM; auto using worded_nonzero).
  rewrite app_length. rewrite firstn_app. rewrite map_length. replace (length a + length (filter worded b) - length a) with (length (filter worded b)) by lia.
  rewrite firstn_all2 by (rewrite map_length; lia). f_equal.
  destruct B as [B|(z0 & b' & -> & Z0 & B)].
  - rewrite (filter_all_true _ _ B). rewrite dz_app by (rewrite ?LM; auto using worded_nonzero).
    rewrite firstn_app, map_length, Nat.sub_diag. cbn [firstn]. rewrite app_nil_r. rewrite firstn_all2; [reflexivity|rewrite map_length; lia].
  - cbn [filter]. rewrite Z0. rewrite (filter_all_true _ _ B). cbn [map app].
    assert (W0 : word_num z0 = 0). { rewrite word_num_worded in Z0. apply negb_false_iff, Nat.eqb_eq in Z0. exact Z0. }
    rewrite W0. rewrite <- (map_length f b'). apply dz_gap; rewrite ?map_length; auto using worded_nonzero.
Qed.

Lemma zero_count gs : length gs - length (filter (no_words false) gs) = length (filter worded gs).
Proof.
  rewrite <- (filter_count worded gs).
  rewrite (filter_ext (no_words false) (fun g => negb (worded g))) by (intro g; rewrite no_words_worded; reflexivity). lia.
Qed.
Lemma raw_none gs : filter (no_words true) gs = [].
Proof. apply filter_all_false. apply forallb_forall. intros g _. rewrite no_words_worded. reflexivity. Qed.
Lemma dz_length : forall wn rest, length rest = length wn -> length (dz wn rest) = length rest.
Proof.
  induction wn as [|w r IH]; intros rest L; [destruct rest; [reflexivity|discriminate]|].
  destruct rest as [|x xs]; [discriminate|]. cbn [dz]. destruct (w =? 0).
  - destruct (xs ++ [pad]) as [|y ys] eqn:E; [destruct xs; discriminate|].
    apply (f_equal (@length Q)) in E. rewrite app_length in E. cbn in *. rewrite IH; lia.
  - cbn in *. rewrite IH; lia.
Qed.

Section Reports.
Variable qs : (nat -> nat -> Z) -> list nat -> list nat.
Hypothesis H : qsort_contract qs.

Lemma column_some raw weighted gs c : exists s, column_stat qs raw weighted gs c = Ok s.
Proof.
  unfold column_stat. cbv zeta. destruct ((0 <? length (filter (no_words raw) gs)) && moved c).
  - rewrite (drop_zero_gs (fun g => value raw weighted g c)).
    cbn [rbind]. destruct (calc_double_ok qs (firstn (length gs - length (filter (no_words raw) gs)) (dz (map word_num gs) (map (fun g => value raw weighted g c) gs))) H) as (s & E & _).
    exists s. exact E.
  - cbn [rbind]. destruct (calc_double_ok qs (firstn (length gs - length (filter (no_words raw) gs)) (map (fun g => value raw weighted g c) gs)) H) as (s & E & _).
    exists s. exact E.
Qed.
Lemma column_values raw weighted gs c : moved c = true -> raw = true \/ one_gap gs ->
  column_stat qs raw weighted gs c = calc_double qs (map (fun g => value raw weighted g c) (filter (fun g => negb (no_words raw g)) gs)).
Proof.
  intros M S. unfold column_stat. cbv zeta. destruct raw.
  - rewrite raw_none. cbn [length Nat.ltb Nat.leb andb rbind]. rewrite Nat.sub_0_r. rewrite firstn_all2 by (rewrite map_length; lia).
    f_equal. f_equal. symmetry. apply filter_all_true, forallb_forall. intros g _. rewrite no_words_worded. reflexivity.
  - destruct S as [S|S]; [discriminate|]. rewrite (filter_ext (fun g => negb (no_words false g)) worded) by (intro g; rewrite no_words_worded; cbn [negb andb]; apply negb_involutive).
    rewrite zero_count. rewrite M, andb_true_r. destruct (Nat.ltb_spec 0 (length (filter (no_words false) gs))) as [Z|Z].
    + rewrite (drop_zero_gs (fun g => value false weighted g c)).
      cbn [rbind]. rewrite (kept_values (fun g => value false weighted g c)) by exact S. reflexivity.
    + cbn [rbind]. pose proof (zero_count gs) as ZC. assert (L : length (filter worded gs) = length gs) by lia.
      rewrite L. rewrite firstn_all2 by (rewrite map_length; lia). f_equal. f_equal. symmetry.
      apply filter_all_true. apply forallb_forall. intros g G. destruct (worded g) eqn:W; [reflexivity|].
      pose proof (filter_count worded gs) as FC. assert (X : In g (filter (fun x => negb (worded x)) gs)) by (apply filter_In; rewrite W; auto).
      destruct (filter (fun x => negb (worded x)) gs); [contradiction|cbn in FC; lia].
Qed.
(** the columns of merges and splits: the first speakers *)
Lemma column_unmoved raw weighted gs c : moved c = false ->
  column_stat qs raw weighted gs c = calc_double qs (map (fun g => value raw weighted g c) (firstn (length gs - length (filter (no_words raw) gs)) gs)).
Proof.
  intros M. unfold column_stat. cbv zeta. rewrite M, andb_false_r. cbn [rbind]. rewrite firstn_map. reflexivity.
Qed.

Lemma map_res_ok {A B} (f : A -> res B) l : (forall x, In x l -> exists y, f x = Ok y) -> exists ys, map_res f l = Ok ys /\ length ys = length l /\
  forall k x, nth_error l k = Some x -> exists y, nth_error ys k = Some y /\ f x = Ok y.
Proof.
  induction l as [|a l IH]; intro F.
  - exists []. split; [reflexivity|]. split; [reflexivity|]. intros [|k] x E; discriminate.
  - destruct (F a) as (y & Y); [left; reflexivity|]. destruct IH as (ys & E & L & N); [intros x X; apply F; right; exact X|].
    exists (y :: ys). cbn [map_res]. rewrite Y. cbn [rbind]. rewrite E. cbn [rbind]. split; [reflexivity|]. split; [cbn; lia|].
    intros [|k] x X; cbn [nth_error] in *; [injection X as <-; exists y; auto|apply N, X].
Qed.

Lemma stat_lines_ok do_sm raw weighted gs : gs <> [] -> Forall counts_fit gs -> exists st, stat_lines qs do_sm raw weighted gs = Ok st /\
  describes (t_snt st) (map (fun g => nq (g_nsent g)) gs) /\ describes (t_wrd st) (map (fun g => nq (word_num g)) gs) /\
  describes (t_serr st) (map (serr_value raw) gs) /\ length (t_cells st) = length (stat_row do_sm) /\
  t_plus st = (0 <? length (filter (no_words raw) gs)) /\
  forall k c, nth_error (stat_row do_sm) k = Some c -> exists s, nth_error (t_cells st) k = Some s /\ column_stat qs raw weighted gs c = Ok s.
Proof.
  intros N F.
  assert (FI : forall f : grp -> nat, (forall g, In g gs -> (Z.of_nat (f g) < 2 ^ 30)%Z) -> exists s, calc_int qs (map (fun g => Z.of_nat (f g)) gs) = Ok s /\ describes s (map (fun g => nq (f g)) gs)).
  { intros f B. destruct (calc_int_ok qs (map (fun g => Z.of_nat (f g)) gs) H) as (s & E & D).
    - destruct gs; [congruence|discriminate].
    - rewrite Forall_map, Forall_forall. intros g G. specialize (B g G). lia.
    - exists s. split; [exact E|]. rewrite map_map in D. exact D. }
  rewrite Forall_forall in F.
  destruct (FI g_nsent) as (s1 & E1 & D1); [intros g G; apply F, G|].
  destruct (FI word_num) as (s2 & E2 & D2); [intros g G; apply F, G|].
  destruct (map_res_ok (column_stat qs raw weighted gs) (stat_row do_sm)) as (cs & E3 & L3 & N3); [intros c _; apply column_some|].
  destruct (calc_double_ok qs (map (serr_value raw) gs) H) as (s4 & E4 & D4).
  unfold stat_lines. rewrite E1. cbn [rbind]. rewrite E2. cbn [rbind]. rewrite E3. cbn [rbind]. rewrite E4. cbn [rbind].
  eexists. split; [reflexivity|]. cbn. auto 10.
Qed.
End Reports.
