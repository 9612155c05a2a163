(** Proofs about the segmentation. *)
From Coq Require Import List Arith ZArith NArith Bool Lia.
From Verif Require Import Base NetDp_Model Word_Model Order_Model Path_Model Path_Spec Mapsswe_Model Mapsswe_Spec.
Import ListNotations.
Local Open Scope res_scope.
Local Open Scope nat_scope.

Lemma is_corr_iff l i : is_corr l i = true <-> correct_at l i.
Proof.
  unfold is_corr, eval_at, correct_at, wstep in *. destruct (nth_error l i) as [s|]; cbn [option_map].
  - destruct s as [[a b] e]. cbn [snd]. split.
    + intros H. eexists. split; [reflexivity|]. destruct e; try discriminate; reflexivity.
    + intros (s & E & H). injection E as <-. cbn [snd] in H. subst e. reflexivity.
  - split; [intros H; discriminate H|intros (s & E & _); discriminate E].
Qed.
Lemma corr_lt l i : is_corr l i = true -> i < length l.
Proof. unfold is_corr, eval_at. destruct (nth_error l i) eqn:E; cbn; [|discriminate]. intros _. apply nth_error_Some. congruence. Qed.

(** errors in a range *)
Definition ne (l : list wstep) (a b : nat) : nat := errors (part a b l).
Definition nr (l : list wstep) (a b : nat) : nat := refs (part a b l).

Lemma skipn_twice {A} (l : list A) : forall a b, skipn a (skipn b l) = skipn (a + b) l.
Proof.
  intros a b. revert a l. induction b; intros a l; [rewrite Nat.add_0_r; reflexivity|]. replace (a + S b) with (S (a + b)) by lia.
  destruct l; [rewrite !skipn_nil; reflexivity|]. cbn [skipn]. apply IHb.
Qed.
Lemma part_split (l : list wstep) a b c : a <= b <= c -> part a c l = part a b l ++ part b c l.
Proof.
  intros H. unfold wstep in *. unfold part. replace (c - a) with ((b - a) + (c - b)) by lia.
  rewrite <- (firstn_skipn (b - a) (skipn a l)) at 1. rewrite skipn_twice. replace (b - a + a) with b by lia.
  rewrite firstn_app. rewrite firstn_firstn. rewrite Nat.min_r by lia. f_equal.
  rewrite firstn_length, skipn_length.
  destruct (Nat.le_gt_cases (b - a) (length l - a)).
  - rewrite Nat.min_l by lia. f_equal. lia.
  - rewrite (skipn_all2 l (n := b)) by lia. rewrite !firstn_nil. reflexivity.
Qed.
Lemma errors_app l l' : errors (l ++ l') = errors l + errors l'.
Proof. unfold errors. rewrite filter_app, app_length. reflexivity. Qed.
Lemma ne_split l a b c : a <= b <= c -> ne l a c = ne l a b + ne l b c.
Proof. intros H. unfold ne. rewrite (part_split l a b c H). apply errors_app. Qed.
Lemma part_one (l : list wstep) i s : nth_error l i = Some s -> part i (i + 1) l = [s].
Proof.
  unfold part. replace (i + 1 - i) with 1 by lia. revert i. induction l; intros [|i] H; try discriminate; cbn [nth_error skipn] in *.
  - injection H as ->. destruct l; reflexivity.
  - apply IHl. exact H.
Qed.
Lemma part_empty (l : list wstep) a b : b <= a -> part a b l = [].
Proof. intros H. unfold part. replace (b - a) with 0 by lia. reflexivity. Qed.

Lemma all_correct_ne l a b : all_correct l a b -> ne l a b = 0.
Proof.
  intros H. destruct (Nat.le_gt_cases b a); [unfold ne; rewrite part_empty by lia; reflexivity|].
  replace b with (a + (b - a)) in * by lia. generalize dependent (b - a). clear. intros n. revert a. induction n; intros a H L.
  - unfold ne. rewrite part_empty by lia. reflexivity.
  - rewrite (ne_split l a (a + 1)) by lia. destruct (H a) as (s & Es & Cs); [lia|].
    assert (ne l a (a + 1) = 0). { unfold ne. rewrite (part_one l a s Es). unfold errors, is_error. cbn [filter]. rewrite Cs. reflexivity. }
    destruct n; [unfold ne at 2; rewrite part_empty by lia; cbn; lia|].
    replace (a + S (S n)) with ((a + 1) + S n) by lia. rewrite IHn; [lia| |lia]. intros i Hi. apply H. lia.
Qed.

Lemma seg_count_ok l : forall k from err ref, from + k <= length l ->
  seg_count l k from err ref = Ok (err + ne l from (from + k), ref + nr l from (from + k)).
Proof.
  induction k; intros from err ref H; cbn [seg_count].
  - unfold ne, nr. rewrite part_empty by lia. cbn. repeat f_equal; lia.
  - destruct (nth_error l from) as [s|] eqn:E; [|apply nth_error_None in E; lia].
    unfold get at 1. rewrite E. cbn [rbind]. rewrite IHk by lia. unfold ne, nr.
    rewrite (part_split l from (from + 1) (from + S k)) by lia. rewrite (part_one l from s E).
    replace (from + 1 + k) with (from + S k) by lia. unfold errors, refs. cbn [app filter]. unfold is_error, has_ref.
    destruct (snd s); cbn [length]; f_equal; f_equal; lia.
Qed.
Lemma seg_count_range l b to err ref : to <= length l -> seg_count l (to - b) b err ref = Ok (err + ne l b to, ref + nr l b to).
Proof.
  intros H. destruct (Nat.le_gt_cases b to).
  - rewrite seg_count_ok by lia. replace (b + (to - b)) with to by lia. reflexivity.
  - replace (to - b) with 0 by lia. cbn [seg_count]. unfold ne, nr. rewrite part_empty by lia. cbn. f_equal. f_equal; lia.
Qed.

(** * insertions *)
Definition settled (l : list wstep) (i : nat) : Prop := forall s, nth_error l i = Some s -> snd s <> PIns.
Lemma skip_ins_ok l : forall k i st, length l <= i + k -> i <= length l ->
  exists i' st', skip_ins k l i st = (i', st') /\ i <= i' <= length l /\ settled l i'
    /\ (i' = i /\ st' = st \/ i < i' /\ st' = ME) /\ (forall j s, i <= j < i' -> nth_error l j = Some s -> snd s = PIns).
Proof.
  induction k; intros i st L Le; cbn [skip_ins].
  - exists i, st. repeat split; auto; try lia. intros s H. assert (i < length l) by (apply nth_error_Some; congruence). lia.
  - destruct (nth_error l i) as [[[a b] e]|] eqn:E.
    + destruct e; try (exists i, st; repeat split; auto; try lia; intros s H; rewrite E in H; injection H as <-; discriminate).
      destruct (IHk (i + 1) ME) as (i' & st' & R & B & S & D & A); [lia|assert (i < length l) by (apply nth_error_Some; congruence); lia|].
      exists i', st'. split; [exact R|]. split; [lia|]. split; [exact S|]. split; [right; destruct D as [[-> ->]|[? ->]]; split; auto; lia|].
      intros j s Hj Hs. destruct (Nat.eq_dec j i) as [->|]; [rewrite E in Hs; injection Hs as <-; reflexivity|]. apply (A j s); [lia|exact Hs].
    + exists i, st. repeat split; auto; try lia. intros s H. congruence.
Qed.

Section Paths.
Variable differ : nat -> nat -> bool.
Variables l1 l2 : list wstep.
Variable mg : nat.
Hypothesis W1 : Forall well_formed_step l1.
Hypothesis W2 : Forall well_formed_step l2.
Hypothesis Mg : 1 <= mg.

Lemma settled_ref l i : Forall well_formed_step l -> settled l i -> ref_null l i = false.
Proof.
  intros W S. unfold ref_null, settled, wstep in *. destruct (nth_error l i) as [[[a b] e]|] eqn:E; [|reflexivity]. destruct a; [reflexivity|exfalso].
  apply (S _ eq_refl). rewrite Forall_forall in W. apply nth_error_In in E. apply W in E. destruct e; cbn in E; destruct E; try congruence; reflexivity.
Qed.

(** whether the two evaluations make the program try to synchronise *)
Definition bad_pair (i1 i2 : nat) : bool :=
  match eval_at l1 i1, eval_at l2 i2 with Some e1, Some e2 => differ i1 i2 && negb (same_eval e1 e2) | _, _ => false end.
Lemma resync_ok i1 i2 st : settled l1 i1 -> settled l2 i2 ->
  resync differ l1 l2 i1 i2 st = Ok (i1, i2, if bad_pair i1 i2 then ME else st).
Proof.
  intros S1 S2. unfold resync, out_of_sync, bad_pair. pose proof (settled_ref l1 i1 W1 S1) as R1. pose proof (settled_ref l2 i2 W2 S2) as R2.
  rewrite R1, R2. cbn [xorb]. destruct (eval_at l1 i1) as [e1|] eqn:E1; [|reflexivity]. destruct (eval_at l2 i2) as [e2|] eqn:E2; [|reflexivity].
  unfold strcmp_words. rewrite R1, R2. cbn [orb rbind]. destruct (differ i1 i2) eqn:D; cbn [andb]; [|reflexivity].
  destruct (same_eval e1 e2) eqn:Q; cbn [negb]; [reflexivity|].
  assert (L1 : i1 < length l1). { unfold eval_at in E1. apply nth_error_Some. intros K. rewrite K in E1. discriminate. }
  assert (L2 : i2 < length l2). { unfold eval_at in E2. apply nth_error_Some. intros K. rewrite K in E2. discriminate. }
  assert (O : sync_outer differ l1 l2 (S (length l1)) i1 i2 i1 i2 = Ok (i1, i2, true)).
  { cbn [sync_outer]. apply Nat.ltb_lt in L1. rewrite L1. cbn [sync_inner]. pose proof L2 as L2'. apply Nat.ltb_lt in L2'. rewrite L2'.
    replace (i2 <=? i2 + 1 + (i1 - i1)) with true by (symmetry; apply Nat.leb_le; lia). cbn [andb].
    unfold strcmp_words. rewrite R1, R2. cbn [orb rbind]. rewrite D. reflexivity. }
  rewrite O. cbn [rbind]. unfold any_error. replace (S i1 - i1) with 1 by lia. replace (S i2 - i2) with 1 by lia.
  cbn [seq existsb]. rewrite !orb_false_r. unfold is_corr. rewrite E1, E2.
  destruct e1, e2; try discriminate; reflexivity.
Qed.

(** * the invariant, one side *)
Notation bg eog := (Z.to_nat (begin_of mg eog)).
Definition side (l : list wstep) (ind eog : nat) (st : mstate) (good sum : nat) (cov : nat -> nat) : Prop :=
  bg eog <= ind <= length l /\ sum = ne l 0 (bg eog)
  /\ (forall i, error_at l i -> cov i = if i <? bg eog then 1 else 0)
  /\ (bg eog = 0 \/ all_correct l (bg eog) (bg eog + mg))
  /\ match st with
     | MB => all_correct l (bg eog) ind /\ (ind = 0 /\ eog = 0 \/ ind = eog + 1)
     | ME => True
     | MG => 1 <= good < mg /\ good <= ind /\ all_correct l (ind - good) ind
     end.

Lemma bg_eq eog : bg eog = eog + 1 - mg.
Proof. unfold begin_of. lia. Qed.
Lemma error_lt (l : list wstep) i : error_at l i -> i < length l.
Proof. unfold wstep in *. intros (x & E & _). apply nth_error_Some. congruence. Qed.
Lemma error_not_correct l i : error_at l i -> correct_at l i -> False.
Proof. intros (s & E & H) (s' & E' & H'). congruence. Qed.

Lemma side_move l ind ind' eog st good sum cov : side l ind eog st good sum cov -> ind <= ind' <= length l -> side l ind' eog ME good sum cov.
Proof. intros (A & B & C & D & _) H. repeat split; auto; lia. Qed.

(** a further correct word before any error *)
Lemma side_good l ind eog good sum cov : side l ind eog MB good sum cov -> is_corr l ind = true -> side l (ind + 1) ind MB good sum cov.
Proof.
  intros (A & B & C & D & (G & E)) H. pose proof (corr_lt l ind H) as Lt. apply is_corr_iff in H. rewrite bg_eq in *.
  assert (G' : all_correct l (eog + 1 - mg) (ind + 1)).
  { intros i Hi. destruct (Nat.eq_dec i ind) as [->|]; [exact H|apply G; lia]. }
  assert (Le : eog + 1 - mg <= ind + 1 - mg) by (destruct E as [[-> ->]|E]; lia).
  unfold side. rewrite !bg_eq. split; [lia|]. split.
  { rewrite (ne_split l 0 (eog + 1 - mg)) by lia. rewrite (all_correct_ne l (eog + 1 - mg)); [lia|]. intros i Hi. apply G'. lia. }
  split.
  { intros i Er. rewrite (C i Er). destruct (Nat.ltb_spec i (eog + 1 - mg)), (Nat.ltb_spec i (ind + 1 - mg)); try lia.
    exfalso. apply (error_not_correct l i Er). apply G'. lia. }
  split. { destruct (Nat.le_gt_cases (ind + 1) mg); [left; lia|right]. intros i Hi. apply G'. lia. }
  split; [|right; reflexivity]. intros i Hi. apply G'. lia.
Qed.

(** the first correct words after an error *)
Lemma side_first l ind eog good sum cov : side l ind eog ME good sum cov -> is_corr l ind = true -> 1 <> mg -> side l (ind + 1) eog MG 1 sum cov.
Proof.
  intros (A & B & C & D & _) H N. pose proof (corr_lt l ind H) as Lt. apply is_corr_iff in H. repeat split; auto; try lia.
  intros i Hi. replace i with ind by lia. exact H.
Qed.
Lemma side_next l ind eog good sum cov : side l ind eog MG good sum cov -> is_corr l ind = true -> good + 1 <> mg -> side l (ind + 1) eog MG (good + 1) sum cov.
Proof.
  intros (A & B & C & D & (E & F & G)) H N. pose proof (corr_lt l ind H) as Lt. apply is_corr_iff in H. repeat split; auto; try lia.
  intros i Hi. destruct (Nat.eq_dec i ind) as [->|]; [exact H|apply G; lia].
Qed.

(** closing a segment *)
Definition cov_add (b e : nat) (cov : nat -> nat) (i : nat) : nat := cov i + (if (b <=? i) && (i <? e) then 1 else 0).
Lemma side_close l ind eog st good good' sum cov : side l ind eog st good sum cov -> ind < length l ->
  mg <= ind + 1 -> all_correct l (ind + 1 - mg) (ind + 1) ->
  side l (ind + 1) ind MB good' (sum + ne l (bg eog) (ind + 1)) (cov_add (bg eog) (ind + 1) cov).
Proof.
  intros (A & B & C & D & _) L M G. rewrite !bg_eq in *. unfold side. rewrite !bg_eq. split; [lia|]. split.
  { rewrite B, <- (ne_split l 0) by lia. rewrite (ne_split l 0 (ind + 1 - mg) (ind + 1)) by lia. rewrite (all_correct_ne l (ind + 1 - mg)) by exact G. lia. }
  split.
  { intros i Er. unfold cov_add. rewrite (C i Er).
    destruct (Nat.ltb_spec i (eog + 1 - mg)), (Nat.leb_spec (eog + 1 - mg) i), (Nat.ltb_spec i (ind + 1)), (Nat.ltb_spec i (ind + 1 - mg)); cbn [andb]; try lia;
      exfalso; apply (error_not_correct l i Er); apply G; lia. }
  split. { right. intros i Hi. apply G. lia. }
  split; [exact G|right; reflexivity].
Qed.

(** * both sides *)
Variable segs0 : list seg.
Definition news (segs new : list seg) : Prop := segs = segs0 ++ new /\ Forall (proper_segment l1 l2 mg) new.
Definition inv (s : loop_state) : Prop := exists new, news (ls_segs s) new
  /\ side l1 (ls_ind1 s) (ls_eog1 s) (ls_st s) (ls_good s) (total sg_err1 new) (fun i => cover1 i new)
  /\ side l2 (ls_ind2 s) (ls_eog2 s) (ls_st s) (ls_good s) (total sg_err2 new) (fun i => cover2 i new).

Lemma total_app f a b : total f (a ++ b) = total f a + total f b.
Proof. clear. induction a; cbn [total app]; lia. Qed.
Lemma cover1_app i a b : cover1 i (a ++ b) = cover1 i a + cover1 i b.
Proof. unfold cover1. rewrite filter_app, app_length. reflexivity. Qed.
Lemma cover2_app i a b : cover2 i (a ++ b) = cover2 i a + cover2 i b.
Proof. unfold cover2. rewrite filter_app, app_length. reflexivity. Qed.

Lemma ne_error l i a b : error_at l i -> a <= i < b -> b <= length l -> 0 < ne l a b.
Proof.
  intros (s & E & H) Hi L. rewrite (ne_split l a i), (ne_split l i (i + 1)) by lia. unfold ne at 2. rewrite (part_one l i s E).
  unfold errors, is_error. cbn [filter]. destruct (snd s); try congruence; cbn [length]; lia.
Qed.
Lemma clip z : Z.to_nat (if (z <? 0)%Z then 0%Z else z) = Z.to_nat z.
Proof. clear. destruct (Z.ltb_spec z 0); lia. Qed.

(** counting a segment: the sums and the cover grow by it *)
Lemma count_seg_ok eog1 eog2 to1 to2 segs new : news segs new -> to1 <= length l1 -> to2 <= length l2 -> bg eog1 <= to1 -> bg eog2 <= to2 ->
  (bg eog1 = 0 \/ all_correct l1 (bg eog1) (bg eog1 + mg)) -> (bg eog2 = 0 \/ all_correct l2 (bg eog2) (bg eog2 + mg)) ->
  ((mg <= to1 /\ all_correct l1 (to1 - mg) to1 /\ mg <= to2 /\ all_correct l2 (to2 - mg) to2) \/ to1 = length l1 /\ to2 = length l2) ->
  exists segs' new', count_seg l1 l2 (begin_of mg eog1) (begin_of mg eog2) to1 to2 segs = Ok segs' /\ news segs' new'
    /\ total sg_err1 new' = total sg_err1 new + ne l1 (bg eog1) to1 /\ total sg_err2 new' = total sg_err2 new + ne l2 (bg eog2) to2
    /\ (forall i, error_at l1 i -> cover1 i new' = cov_add (bg eog1) to1 (fun i => cover1 i new) i)
    /\ (forall i, error_at l2 i -> cover2 i new' = cov_add (bg eog2) to2 (fun i => cover2 i new) i).
Proof.
  intros [E F] L1 L2 B1 B2 G1 G2 En. unfold count_seg. rewrite !clip. rewrite !seg_count_range by assumption. cbn [rbind]. rewrite !Nat.add_0_l.
  destruct ((ne l1 (bg eog1) to1 =? 0) && (ne l2 (bg eog2) to2 =? 0)) eqn:Z.
  - apply andb_true_iff in Z. destruct Z as [Z1 Z2]. apply Nat.eqb_eq in Z1. apply Nat.eqb_eq in Z2.
    exists segs, new. split; [reflexivity|]. split; [split; assumption|]. split; [lia|]. split; [lia|].
    split; intros i Er; unfold cov_add; destruct (Nat.leb_spec (bg eog1) i), (Nat.leb_spec (bg eog2) i), (Nat.ltb_spec i to1), (Nat.ltb_spec i to2); cbn [andb]; try lia;
      try (assert (0 < ne l1 (bg eog1) to1) by (apply (ne_error l1 i); auto; lia); lia); try (assert (0 < ne l2 (bg eog2) to2) by (apply (ne_error l2 i); auto; lia); lia).
  - assert (P : 0 < ne l1 (bg eog1) to1 + ne l2 (bg eog2) to2).
    { apply andb_false_iff in Z. destruct Z as [Z|Z]; apply Nat.eqb_neq in Z; lia. }
    match goal with |- context [segs ++ [?x]] => set (sg := x) end.
    assert (Ps : proper_segment l1 l2 mg sg).
    { constructor; subst sg; cbn [sg_beg1 sg_end1 sg_beg2 sg_end2 sg_ref sg_err1 sg_err2]; auto; lia. }
    exists (segs ++ [sg]), (new ++ [sg]). split; [reflexivity|]. split.
    { split; [rewrite E, <- app_assoc; reflexivity|apply Forall_app; auto]. }
    rewrite !total_app. cbn [total]. split; [subst sg; cbn [sg_err1]; lia|]. split; [subst sg; cbn [sg_err2]; lia|].
    split; intros i Er; [rewrite cover1_app|rewrite cover2_app]; unfold cov_add; f_equal.
    + unfold cover1. subst sg. cbn [filter sg_beg1 sg_end1]. destruct ((bg eog1 <=? i) && (i <? to1)); reflexivity.
    + unfold cover2. subst sg. cbn [filter sg_beg2 sg_end2]. destruct ((bg eog2 <=? i) && (i <? to2)); reflexivity.
Qed.

Lemma side_cov l ind eog st good sum cov cov' : side l ind eog st good sum cov -> (forall i, error_at l i -> cov' i = cov i) -> side l ind eog st good sum cov'.
Proof. intros (A & B & C & D & E) H. repeat split; auto; try lia; intros i Er; rewrite (H i Er); apply C; exact Er. Qed.

Lemma close_ok ind1 ind2 s good' new : news (ls_segs s) new ->
  side l1 ind1 (ls_eog1 s) (ls_st s) (ls_good s) (total sg_err1 new) (fun i => cover1 i new) ->
  side l2 ind2 (ls_eog2 s) (ls_st s) (ls_good s) (total sg_err2 new) (fun i => cover2 i new) ->
  ind1 < length l1 -> ind2 < length l2 ->
  mg <= ind1 + 1 -> all_correct l1 (ind1 + 1 - mg) (ind1 + 1) -> mg <= ind2 + 1 -> all_correct l2 (ind2 + 1 - mg) (ind2 + 1) ->
  exists segs' new', count_seg l1 l2 (begin_of mg (ls_eog1 s)) (begin_of mg (ls_eog2 s)) (ind1 + 1) (ind2 + 1) (ls_segs s) = Ok segs' /\ news segs' new'
    /\ side l1 (ind1 + 1) ind1 MB good' (total sg_err1 new') (fun i => cover1 i new')
    /\ side l2 (ind2 + 1) ind2 MB good' (total sg_err2 new') (fun i => cover2 i new').
Proof.
  intros N S1 S2 L1 L2 M1 G1 M2 G2.
  destruct (count_seg_ok (ls_eog1 s) (ls_eog2 s) (ind1 + 1) (ind2 + 1) _ _ N) as (segs' & new' & E & N' & T1 & T2 & C1 & C2).
  - lia.
  - lia.
  - destruct S1; lia.
  - destruct S2; lia.
  - apply S1.
  - apply S2.
  - left. auto.
  - exists segs', new'. split; [exact E|]. split; [exact N'|]. rewrite T1, T2. split.
    + eapply side_cov; [eapply side_close; eassumption|exact C1].
    + eapply side_cov; [eapply side_close; eassumption|exact C2].
Qed.

Lemma turn_ok s : inv s -> ls_ind1 s < length l1 ->
  exists s', turn differ l1 l2 mg s = Ok s' /\ inv s' /\ ls_ind1 s < ls_ind1 s'.
Proof.
  intros (new & N & S1 & S2) L. unfold turn.
  assert (Li1 : ls_ind1 s <= length l1) by (destruct S1; lia). assert (Li2 : ls_ind2 s <= length l2) by (destruct S2; lia).
  destruct (skip_ins_ok l1 (length l1) (ls_ind1 s) (ls_st s)) as (i1 & st1 & -> & B1 & Se1 & D1 & _); [lia|lia|].
  destruct (skip_ins_ok l2 (length l2) (ls_ind2 s) st1) as (i2 & st2 & -> & B2 & Se2 & D2 & _); [lia|lia|].
  rewrite (resync_ok i1 i2 st2 Se1 Se2). cbn [rbind]. set (st := if bad_pair i1 i2 then ME else st2).
  assert (K : side l1 i1 (ls_eog1 s) st (ls_good s) (total sg_err1 new) (fun i => cover1 i new)
           /\ side l2 i2 (ls_eog2 s) st (ls_good s) (total sg_err2 new) (fun i => cover2 i new)).
  { assert (X : st = ME \/ (st = ls_st s /\ i1 = ls_ind1 s /\ i2 = ls_ind2 s)).
    { unfold st. destruct (bad_pair i1 i2); [auto|]. destruct D2 as [[-> ->]|[_ ->]]; [|auto]. destruct D1 as [[-> ->]|[_ ->]]; auto. }
    destruct X as [->|(-> & -> & ->)]; [|auto]. split; eapply side_move; eauto. }
  destruct K as [K1 K2]. clearbody st. clear D1 D2 S1 S2 st1 st2 Se1 Se2.
  set (s1 := {| ls_ind1 := i1; ls_ind2 := i2; ls_eog1 := ls_eog1 s; ls_eog2 := ls_eog2 s; ls_st := st; ls_good := ls_good s; ls_segs := ls_segs s |}).
  assert (T : exists s2, transition l1 l2 mg i1 i2 s1 = Ok s2 /\ inv
    {| ls_ind1 := if i1 <? length l1 then i1 + 1 else i1; ls_ind2 := if i2 <? length l2 then i2 + 1 else i2;
       ls_eog1 := ls_eog1 s2; ls_eog2 := ls_eog2 s2; ls_st := ls_st s2; ls_good := ls_good s2; ls_segs := ls_segs s2 |}).
  { unfold transition. cbv zeta. destruct (is_corr l1 i1 && is_corr l2 i2) eqn:Both.
    - apply andb_true_iff in Both. destruct Both as [C1 C2]. pose proof (corr_lt _ _ C1) as Lt1. pose proof (corr_lt _ _ C2) as Lt2.
      pose proof Lt1 as Q1. pose proof Lt2 as Q2. apply Nat.ltb_lt in Q1. apply Nat.ltb_lt in Q2. rewrite Q1, Q2.
      cbn [ls_st s1]. destruct st.
      + eexists. split; [reflexivity|]. exists new. cbn [ls_segs ls_ind1 ls_ind2 ls_eog1 ls_eog2 ls_st ls_good]. split; [exact N|].
        split; eapply side_good; eauto.
      + destruct (Nat.eqb_spec 1 mg) as [M|M].
        * destruct (close_ok i1 i2 s1 1 new N K1 K2 Lt1 Lt2) as (segs' & new' & E & N' & S1' & S2').
          { lia. } { intros i Hi. replace i with i1 by lia. apply is_corr_iff. exact C1. } { lia. } { intros i Hi. replace i with i2 by lia. apply is_corr_iff. exact C2. }
          rewrite E. cbn [rbind]. eexists. split; [reflexivity|]. exists new'. cbn [ls_segs ls_ind1 ls_ind2 ls_eog1 ls_eog2 ls_st ls_good]. auto.
        * eexists. split; [reflexivity|]. exists new. cbn [ls_segs ls_ind1 ls_ind2 ls_eog1 ls_eog2 ls_st ls_good]. split; [exact N|].
          split; eapply side_first; eauto.
      + cbn [ls_good s1]. destruct (Nat.eqb_spec (ls_good s + 1) mg) as [M|M].
        * pose proof K1 as K1'. pose proof K2 as K2'. destruct K1 as (A1 & X1 & Y1 & Z1 & (E1 & F1 & G1)), K2 as (A2 & X2 & Y2 & Z2 & (E2 & F2 & G2)).
          destruct (close_ok i1 i2 s1 (ls_good s + 1) new N K1' K2' Lt1 Lt2) as (segs' & new' & E & N' & S1' & S2').
          { lia. }
          { intros i Hi. destruct (Nat.eq_dec i i1) as [->|]; [apply is_corr_iff; exact C1|apply G1; lia]. } { lia. }
          { intros i Hi. destruct (Nat.eq_dec i i2) as [->|]; [apply is_corr_iff; exact C2|apply G2; lia]. }
          rewrite E. cbn [rbind]. eexists. split; [reflexivity|]. exists new'. cbn [ls_segs ls_ind1 ls_ind2 ls_eog1 ls_eog2 ls_st ls_good]. auto.
        * eexists. split; [reflexivity|]. exists new. cbn [ls_segs ls_ind1 ls_ind2 ls_eog1 ls_eog2 ls_st ls_good]. split; [exact N|].
          split; eapply side_next; eauto.
    - assert (Mv1 : i1 <= (if i1 <? length l1 then i1 + 1 else i1) <= length l1) by (destruct (Nat.ltb_spec i1 (length l1)); lia).
      assert (Mv2 : i2 <= (if i2 <? length l2 then i2 + 1 else i2) <= length l2) by (destruct (Nat.ltb_spec i2 (length l2)); lia).
      cbn [ls_st s1]. destruct st; (eexists; split; [reflexivity|]; exists new; cbn [ls_segs ls_ind1 ls_ind2 ls_eog1 ls_eog2 ls_st ls_good]; split; [exact N|];
        split; eapply side_move; eauto). }
  destruct T as (s2 & -> & I). cbn [rbind]. eexists. split; [reflexivity|]. split; [exact I|].
  cbn [ls_ind1]. destruct (Nat.ltb_spec i1 (length l1)); lia.
Qed.

Lemma loop_ok : forall fuel s, inv s -> length l1 - ls_ind1 s < fuel ->
  exists s', seg_loop differ l1 l2 mg fuel s = Ok s' /\ inv s' /\ ls_ind1 s' = length l1.
Proof.
  induction fuel; intros s I L; [lia|]. cbn [seg_loop]. destruct (Nat.ltb_spec (ls_ind1 s) (length l1)) as [Lt|Ge].
  - destruct (turn_ok s I Lt) as (s' & -> & I' & P). cbn [rbind]. apply IHfuel; [exact I'|lia].
  - exists s. split; [reflexivity|]. split; [exact I|]. destruct I as (n & _ & S1 & _). destruct S1. lia.
Qed.

Lemma inv_start : inv {| ls_ind1 := 0; ls_ind2 := 0; ls_eog1 := 0; ls_eog2 := 0; ls_st := MB; ls_good := 0; ls_segs := segs0 |}.
Proof.
  exists []. split; [split; [rewrite app_nil_r; reflexivity|constructor]|]. cbn [ls_segs ls_ind1 ls_ind2 ls_eog1 ls_eog2 ls_st ls_good].
  assert (bg 0 = 0) by (rewrite bg_eq; lia).
  split; unfold side; rewrite H; (split; [lia|]); (split; [reflexivity|]); (split; [reflexivity|]); (split; [left; reflexivity|]); (split; [intros i Hi; lia|auto]).
Qed.

Lemma test_ok : exists new, test_comp_sents differ l1 l2 mg segs0 = Ok (segs0 ++ new) /\ Forall (proper_segment l1 l2 mg) new
  /\ total sg_err1 new = errors l1 /\ total sg_err2 new = errors l2
  /\ (forall i, error_at l1 i -> cover1 i new = 1) /\ (forall i, error_at l2 i -> cover2 i new = 1).
Proof.
  assert (All : forall l, ne l 0 (length l) = errors l).
  { intros l. unfold ne, part. rewrite Nat.sub_0_r. cbn [skipn]. rewrite firstn_all. reflexivity. }
  unfold test_comp_sents. destruct (loop_ok (S (length l1)) _ inv_start) as (s & -> & I & Le). { cbn [ls_ind1]. lia. } cbn [rbind].
  destruct I as (new & N & S1 & S2). rewrite Le in S1.
  destruct (match ls_st s with MB => ls_ind2 s <? length l2 | _ => true end) eqn:Fin.
  - destruct (count_seg_ok (ls_eog1 s) (ls_eog2 s) (length l1) (length l2) _ _ N) as (segs' & new' & E & [Es N'] & T1 & T2 & C1 & C2).
    { lia. } { lia. } { destruct S1; lia. } { destruct S2; lia. } { apply S1. } { apply S2. } { auto. }
    rewrite E, Es. exists new'. split; [reflexivity|]. split; [exact N'|].
    destruct S1 as (A1 & B1 & X1 & _), S2 as (A2 & B2 & X2 & _).
    rewrite T1, T2, B1, B2. rewrite <- !ne_split by lia. rewrite !All. split; [reflexivity|]. split; [reflexivity|]. split; intros i Er.
    + rewrite (C1 i Er). unfold cov_add. rewrite (X1 i Er). assert (i < length l1) by (apply error_lt; exact Er).
      destruct (Nat.ltb_spec i (bg (ls_eog1 s))), (Nat.leb_spec (bg (ls_eog1 s)) i), (Nat.ltb_spec i (length l1)); cbn [andb]; lia.
    + rewrite (C2 i Er). unfold cov_add. rewrite (X2 i Er). assert (i < length l2) by (apply error_lt; exact Er).
      destruct (Nat.ltb_spec i (bg (ls_eog2 s))), (Nat.leb_spec (bg (ls_eog2 s)) i), (Nat.ltb_spec i (length l2)); cbn [andb]; lia.
  - destruct (ls_st s) eqn:St; try discriminate. apply Nat.ltb_ge in Fin.
    destruct N as [Es N]. rewrite Es. exists new. split; [reflexivity|]. split; [exact N|].
    destruct S1 as (A1 & B1 & X1 & _ & G1 & _), S2 as (A2 & B2 & X2 & _ & G2 & _).
    assert (Q : ls_ind2 s = length l2) by lia. rewrite Q in *.
    rewrite B1, B2. rewrite <- !All. rewrite (ne_split l1 0 (bg (ls_eog1 s)) (length l1)), (ne_split l2 0 (bg (ls_eog2 s)) (length l2)) by lia.
    rewrite (all_correct_ne l1 _ _ G1), (all_correct_ne l2 _ _ G2). split; [lia|]. split; [lia|]. split; intros i Er.
    + rewrite (X1 i Er). assert (i < length l1) by (apply error_lt; exact Er).
      destruct (Nat.ltb_spec i (bg (ls_eog1 s))); [reflexivity|]. exfalso. apply (error_not_correct l1 i Er). apply G1. lia.
    + rewrite (X2 i Er). assert (i < length l2) by (apply error_lt; exact Er).
      destruct (Nat.ltb_spec i (bg (ls_eog2 s))); [reflexivity|]. exfalso. apply (error_not_correct l2 i Er). apply G2. lia.
Qed.
End Paths.
