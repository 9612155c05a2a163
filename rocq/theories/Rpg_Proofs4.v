(** Proofs about whole tables. *)
From Coq Require Import List Arith ZArith NArith Bool Lia.
From Verif Require Import Base Rpg_Model Rpg_Spec Rpg_Proofs1 Rpg_Proofs2 Rpg_Proofs3.
Import ListNotations.
Local Open Scope res_scope.
Local Open Scope nat_scope.

Definition szs_of (spread : nat -> nat -> nat -> nat) (pad : nat) (sz : sizes) (w : nat) (cols : list (N * N)) : list (nat * nat) :=
  cell_sizes spread pad sz (w - just_width pad sz (def_of cols)) (length cols) 0 0 cols.
Definition W_of (spread : nat -> nat -> nat -> nat) (pad : nat) (sz : sizes) (w : nat) (cols : list (N * N)) : list (nat * nat) :=
  vis cols (szs_of spread pad sz w cols).
(** every text is not longer than its cell *)
Fixpoint fitm (cols : list (N * N)) (szs : list (nat * nat)) (ls : list (list N)) : Prop :=
  match cols, szs, ls with
  | [], [], [] => True
  | (j, _) :: cols, (tw, _) :: szs, l :: ls => (is_a j = false -> measure (isupper j) 0 0 l <= tw) /\ fitm cols szs ls
  | _, _, _ => False
  end.
Lemma fitm_fitc : forall cols szs ls, fitm cols szs ls -> fitc cols szs ls.
Proof.
  induction cols as [|[j i] cols IH]; intros [|[tw cw] szs] [|l ls] H; try destruct H; [exact I|]. split; [|apply IH; assumption].
  intros E. left. apply H. exact E.
Qed.
Lemma fit_fitm : forall spread pad sz u n cols c add vals, fit pad n c cols vals sz -> length vals = length cols ->
  fitm cols (cell_sizes spread pad sz u n c add cols) vals.
Proof.
  induction cols as [|[j i] cols IH]; intros c add vals F L; (destruct vals as [|v vals]; try discriminate); [exact I|].
  destruct F as [F1 F2]. cbn [length] in L. rewrite cell_sizes_cons. destruct (is_a j) eqn:E.
  - split; [congruence|]. apply IH; [exact F2|lia].
  - split; [intros _; apply F1; reflexivity|]. apply IH; [exact F2|lia].
Qed.
Lemma pieces_all_shows : forall cols szs ls pss, fitm cols szs ls -> all_pieces (vis cols szs) (vis cols ls) pss ->
  length pss = length (cells cols)
  /\ Forall2 (fun cw vp => shows (fst (fst cw)) (fst (snd cw)) (fst vp) (snd vp)) (combine (cells cols) (vis cols szs)) (combine (vis cols ls) pss).
Proof.
  induction cols as [|[j i] cols IH]; intros [|[tw cw] szs] [|l ls] pss F A; try (destruct F; fail).
  - destruct pss; [|destruct A]. split; [reflexivity|constructor].
  - destruct F as [F1 F2]. cbn [vis cells] in *. unfold is_a in *. destruct (j =? 97)%N eqn:E; [apply IH; assumption|]. destruct pss as [|ps pss]; [destruct A|]. destruct A as [A1 A2].
    destruct (IH _ _ _ F2 A2) as [I1 I2]. cbn [app length combine]. split; [lia|]. constructor; [|exact I2]. cbn [fst snd].
    apply pieces_shows; [apply F1; reflexivity|exact A1].
Qed.
Lemma cell_sizes_pad : forall spread pad sz u n cols c add,
  Forall (fun tc => fst tc + 2 * pad <= snd tc) (vis cols (cell_sizes spread pad sz u n c add cols)).
Proof.
  induction cols as [|[j i] cols IH]; intros c add; [constructor|]. rewrite cell_sizes_cons. cbn [vis]. destruct (is_a j) eqn:E; [apply IH|].
  cbn [vis]. constructor; [cbn [fst snd]; lia|apply IH].
Qed.
Lemma cell_sizes_exact : forall spread pad sz n cols c, fair spread -> 0 < n -> c + length cols = n ->
  Forall (fun tc => snd tc = fst tc + 2 * pad) (vis cols (cell_sizes spread pad sz 0 n c 0 cols)).
Proof.
  induction cols as [|[j i] cols IH]; intros c Hf Hn L; [constructor|]. rewrite cell_sizes_cons. cbn [length] in L. cbn [vis].
  assert (Z : added spread 0 n c 0 cols = 0).
  { unfold added. destruct cols as [|x cols]; [reflexivity|]. cbn [Nat.max].
    assert (spread 0 n (c + run (x :: cols) + 1) <= spread 0 n n). { apply (proj1 Hf). pose proof (run_le (x :: cols)). cbn [length] in *. lia. }
    rewrite (proj2 Hf 0 n Hn) in H. lia. }
  destruct (is_a j) eqn:E; cbn [vis]; [apply IH; try assumption; lia|]. rewrite Z. constructor; [cbn [fst snd]; lia|apply IH; try assumption; lia].
Qed.
Lemma shows_texts : forall (cs : list (N * N)) W vs pss k, length W = length cs -> length pss = length cs -> length vs = length cs ->
  Forall (fun tc => fst tc <= snd tc) W ->
  Forall2 (fun cw vp => shows (fst (fst cw)) (fst (snd cw)) (fst vp) (snd vp)) (combine cs W) (combine vs pss) ->
  Forall2 (fun (tc : nat * nat) t => length t = snd tc) W (map3 (fun c tc p => placed (fst c) (fst tc) (snd tc) p) cs W (at_line pss k)).
Proof.
  induction cs as [|c cs IH]; intros [|tc W] [|v vs] [|ps pss] k L1 L2 L3 F S; try discriminate; [constructor|].
  cbn [combine] in S. cbn [at_line map map3]. inversion S as [|a b d e S1 S2]; subst. cbn [length] in *. constructor.
  - cbn [fst snd] in S1. destruct S1 as [S1 _]. apply placed_length; [|exact (Forall_inv F)].
    destruct (Nat.lt_ge_cases k (length ps)) as [Hk|Hk]; [|rewrite nth_overflow by exact Hk; cbn; lia].
    rewrite Forall_forall in S1. apply S1. apply nth_In. exact Hk.
  - apply (IH W vs pss k); try lia; [exact (Forall_inv_tail F)|exact S2].
Qed.
Lemma filled_ok : forall W p, Forall2 (fun (tc : nat * nat) t => length t = snd tc) W (filled W p).
Proof. induction W as [|tc W IH]; intros p; [constructor|]. unfold filled. cbn [map]. constructor; [apply repeat_length|apply IH]. Qed.
Lemma lens_ge : forall cs W tc, In tc W -> length W = length cs -> snd tc <= lens cs W.
Proof.
  induction cs as [|c cs IH]; intros [|x W] tc H L; try discriminate; [destruct H|]. cbn [lens]. cbn [length] in L. destruct H as [->|H]; [lia|].
  specialize (IH W tc H ltac:(lia)). destruct cs as [|c' cs]; [destruct W; [destruct H|discriminate]|]. lia.
Qed.
Lemma lens_width : forall spread pad sz w r, fair spread -> good_row r -> just_width pad sz (def_of (s_cols r)) <= w ->
  2 + lens (cells (s_cols r)) (W_of spread pad sz w (s_cols r)) = w.
Proof.
  intros spread pad sz w r Hf [G1 [G2 [_ [G3 _]]]] Hw. unfold W_of, szs_of. destruct (s_cols r) as [|[j i] cols]; [congruence|]. cbn [hd fst] in G2.
  assert (E : is_a j = false) by (apply N.eqb_neq; exact G2).
  assert (E2 : is_last ((j, i) :: cols) = false) by (unfold is_last; cbn [run length]; rewrite E; reflexivity).
  assert (E3 : run ((j, i) :: cols) = 0) by (cbn [run]; rewrite E; reflexivity).
  assert (E4 : length ((j, i) :: cols) = S (length cols)) by reflexivity.
  set (cs := (j, i) :: cols) in *. clearbody cs.
  rewrite lens_total; [|exact Hf|lia|exact G3|reflexivity|right; reflexivity]. rewrite E2, E3.
  unfold just_width, def_of in *. cbn [d_cols d_chars skipn] in *. rewrite !Nat.sub_0_r, Nat.add_0_r in *. unfold col in *. lia.
Qed.
Lemma mark_length : forall above p ik, length (mark above p ik) = length (bar_of (fst ik)).
Proof. intros above p [i k]. unfold mark. cbn [fst]. destruct (p =? 32)%N; [reflexivity|]. apply map_length. Qed.
Lemma end_sep_no_eq : forall cols i, i <> 61%N -> Forall (fun c => snd c <> 61%N) cols -> end_sep i cols <> 61%N.
Proof.
  induction cols as [|[j i'] cols IH]; intros i H F; [exact H|]. cbn [end_sep]. destruct (j =? 97)%N; [|exact H].
  apply IH; [exact (Forall_inv F)|exact (Forall_inv_tail F)].
Qed.
Lemma cells_no_eq : forall cols, Forall (fun c => snd c <> 61%N) cols -> Forall (fun c : N * N => snd c <> 61%N) (cells cols).
Proof.
  induction cols as [|[j i] cols IH]; intros F; [constructor|]. cbn [cells]. pose proof (IH (Forall_inv_tail F)) as IH'.
  destruct (j =? 97)%N; cbn [app]; [exact IH'|]. constructor; [|exact IH']. cbn [snd]. apply end_sep_no_eq; [exact (Forall_inv F)|exact (Forall_inv_tail F)].
Qed.
Lemma below_marks : forall p cs ms, Forall2 (mark_below p) (map snd cs) ms -> Forall (fun c : N * N => snd c <> 61%N) cs ->
  Forall2 (fun (c : N * N) (m : list N) => length m = length (bar_of (snd c))) cs ms.
Proof.
  induction cs as [|c cs IH]; intros ms H Q; inversion H as [|a b d e H1 H2]; subst; constructor; [|apply IH; [exact H2|exact (Forall_inv_tail Q)]].
  unfold bar_of. pose proof (Forall_inv Q) as Q1. cbn beta in Q1. apply N.eqb_neq in Q1. rewrite Q1. unfold mark_below in H1. destruct (p =? 32)%N; [subst; reflexivity|].
  destruct H1 as [->|[_ [_ ->]]]; reflexivity.
Qed.
Lemma row_ok : forall spread pad sz w prev r m ls, fair spread -> good_row r -> kept r m ->
  fit pad (num_col m) 0 (d_cols (r_def m)) (r_vals m) sz -> just_width pad sz (r_def m) <= w ->
  row_lines spread pad sz w prev m = Ok ls ->
  row_shown (W_of spread pad sz w (s_cols r)) prev r ls /\ Forall (fun l => length l = w) ls.
Proof.
  intros spread pad sz w prev r m ls Hf G K F Hw H. destruct K as [K1 [K2 [K3 [K4 K5]]]].
  pose proof G as [_ [_ [O [_ [_ [Gl [_ Ga]]]]]]]. unfold num_col in F. rewrite K1 in *. cbn [def_of d_cols] in F.
  pose proof (lens_width spread pad sz w r Hf G Hw) as Hlen.
  unfold row_lines in H. rewrite K1 in H. cbn [def_of d_cols] in H. cbv zeta in H.
  change (cell_sizes spread pad sz (w - just_width pad sz (def_of (s_cols r))) (length (s_cols r)) 0 0 (s_cols r))
    with (szs_of spread pad sz w (s_cols r)) in H.
  assert (Ls : length (szs_of spread pad sz w (s_cols r)) = length (s_cols r)) by apply cell_sizes_length.
  assert (Fm : fitm (s_cols r) (szs_of spread pad sz w (s_cols r)) (r_vals m)) by (apply fit_fitm; assumption).
  pose proof (vis_length _ (s_cols r) _ Ls) as Lv. unfold W_of in *.
  set (cols := s_cols r) in *. set (szs := szs_of spread pad sz w cols) in *.
  assert (Hp : Forall (fun tc => fst tc + 2 * pad <= snd tc) (vis cols szs)) by apply cell_sizes_pad.
  assert (Hp' : Forall (fun tc => fst tc <= snd tc) (vis cols szs)) by (eapply Forall_impl; [|exact Hp]; cbn beta; intros; lia).
  destruct (text_lines _ cols szs (r_vals m)) as [ts| | |] eqn:Et; try discriminate. cbn [rbind] in H. injection H as <-.
  destruct (text_lines_ok _ _ _ _ _ O (fitm_fitc _ _ _ Fm) Et) as [pss [A Hts]].
  destruct (pieces_all_shows _ _ _ _ Fm A) as [Lp Sh]. unfold str in *. rewrite K3 in Sh.
  assert (Lvals : length (s_vals r) = length (cells cols)). { rewrite <- K3. apply vis_length. exact K2. }
  assert (Bf : map (fun p => bar (rule_cells p prev 0 cols szs)) (r_before m) = map (line_above prev cols (vis cols szs)) (s_before r)).
  { rewrite K4. apply map_ext. intros p. unfold line_above, bar, closed. rewrite rule_cells_ok by assumption. reflexivity. }
  assert (Af : Forall2 (line_below cols (vis cols szs)) (s_after r) (map (fun p => bar (after_cells p prev 0 cols szs)) (r_after m))).
  { rewrite K5. assert (Q : s_after r <> [] -> Forall (fun c => snd c <> 61%N) cols) by exact Ga. clear Ga. revert Q. generalize (s_after r). intros l.
    induction l as [|p ps IH]; intros Q; [constructor|]. cbn [map]. specialize (Q ltac:(discriminate)). constructor; [|apply IH; intros _; exact Q].
    destruct (after_cells_ok p prev cols szs 0 O Q Ls) as [ms [M1 M2]]. exists ms. split; [exact M1|]. unfold bar, closed. rewrite M2. reflexivity. }
  unfold str in *. split.
  - split; [exact Lv|]. exists pss, (map (fun p => bar (after_cells p prev 0 cols szs)) (r_after m)).
    split; [exact Lp|]. split; [exact Sh|]. split; [exact Af|]. rewrite Bf, Hts. reflexivity.
  - assert (C : forall l, length (closed l) = 2 + length l) by (intros l; unfold closed; rewrite !app_length; cbn [length]; lia).
    assert (Le : forall cols c, length (ends c cols) = length (cells cols)). { clear. induction cols as [|[j i] cols IH]; intros c; [reflexivity|]. cbn [ends cells]. destruct (j =? 97)%N; cbn [app length]; rewrite IH; reflexivity. }
    apply Forall_app. split; [|apply Forall_app; split].
    + rewrite Bf. apply Forall_forall. intros l Hl. apply in_map_iff in Hl. destruct Hl as [p [<- _]]. unfold line_above. rewrite C.
      rewrite (between_length (cells cols) (vis cols szs)); [exact Hlen|exact Lv|apply filled_ok|].
      generalize (Le cols 0). generalize (ends 0 cols). generalize (cells cols). induction l as [|c cs IH]; intros [|e es] L; try discriminate; [constructor|].
      cbn [map combine]. constructor; [rewrite mark_length; reflexivity|]. apply IH. cbn [length] in L. lia.
    + rewrite Hts. apply Forall_forall. intros l Hl. apply in_map_iff in Hl. destruct Hl as [k [<- _]]. unfold text_line. rewrite C.
      rewrite (between_length (cells cols) (vis cols szs)); [exact Hlen|exact Lv|apply (shows_texts _ _ (s_vals r)); assumption|].
      generalize (cells cols). induction l as [|c cs IH]; constructor; [reflexivity|exact IH].
    + apply Forall_forall. intros l Hl. apply in_map_iff in Hl. destruct Hl as [p [<- Hin]].
      assert (Q : Forall (fun c => snd c <> 61%N) cols). { apply Ga. intros E. rewrite K5, E in Hin. destruct Hin. }
      destruct (after_cells_ok p prev cols szs 0 O Q Ls) as [ms [M1 M2]]. change (bar (after_cells p prev 0 cols szs)) with (closed (after_cells p prev 0 cols szs)).
      rewrite C, M2. rewrite (between_length (cells cols) (vis cols szs)); [exact Hlen|exact Lv|apply filled_ok|].
      apply (below_marks p); [exact M1|]. apply cells_no_eq. exact Q.
Qed.
Lemma rows_ok : forall spread pad sz w all, fair spread -> (forall m, In m all -> fit pad (num_col m) 0 (d_cols (r_def m)) (r_vals m) sz /\ just_width pad sz (r_def m) <= w) ->
  forall rows ms prev ls, (forall m, In m ms -> In m all) -> Forall good_row rows -> Forall2 kept rows ms -> rows_lines spread pad sz w prev ms = Ok ls ->
  exists lss, ls = concat lss /\ rows_shown (W_of spread pad sz w) prev rows lss /\ Forall (fun l => length l = w) ls.
Proof.
  intros spread pad sz w all Hf Ha rows. induction rows as [|r rows IH]; intros ms prev ls Hin G K H; inversion K as [|a m c ms' K1 K2]; subst.
  - injection H as <-. exists []. split; [reflexivity|]. split; [exact I|constructor].
  - cbn [rows_lines] in H. destruct (row_lines spread pad sz w prev m) as [l1| | |] eqn:E1; try discriminate. cbn [rbind] in H.
    destruct (rows_lines spread pad sz w (Some (d_cols (r_def m))) ms') as [l2| | |] eqn:E2; try discriminate. cbn [rbind] in H. injection H as <-.
    destruct (Ha m (Hin m ltac:(left; reflexivity))) as [A1 A2].
    destruct (row_ok _ _ _ _ _ _ _ _ Hf (Forall_inv G) K1 A1 A2 E1) as [R1 R2].
    pose proof K1 as [Kd _]. rewrite Kd in E2. cbn [def_of d_cols] in E2.
    destruct (IH ms' _ l2 ltac:(intros; apply Hin; right; assumption) (Forall_inv_tail G) K2 E2) as [lss [L1 [L2 L3]]].
    exists (l1 :: lss). split; [cbn [concat]; rewrite L1; reflexivity|]. split; [split; assumption|]. apply Forall_app. split; assumption.
Qed.

(** ** Columns without spans *)
Lemma vis_all : forall A cols (xs : list A), Forall (fun c => fst c <> 97%N) cols -> length xs = length cols -> vis cols xs = xs.
Proof.
  induction cols as [|[j i] cols IH]; intros [|x xs] F L; try discriminate; [reflexivity|]. cbn [vis]. pose proof (Forall_inv F) as Fj. cbn [fst] in Fj.
  unfold is_a. apply N.eqb_neq in Fj. rewrite Fj. f_equal. apply IH; [exact (Forall_inv_tail F)|cbn [length] in L; lia].
Qed.
Lemma run_none : forall cols, Forall (fun c => fst c <> 97%N) cols -> run cols = 0.
Proof. intros [|[j i] cols] F; [reflexivity|]. pose proof (Forall_inv F) as Fj. cbn [fst] in Fj. cbn [run]. unfold is_a. apply N.eqb_neq in Fj. rewrite Fj. reflexivity. Qed.
Lemma pass2_none : forall pad n cols c vals sz, Forall (fun c => fst c <> 97%N) cols -> pass2 pad n c 0 cols vals sz = sz.
Proof.
  induction cols as [|[j i] cols IH]; intros c vals sz F; [reflexivity|]. destruct vals as [|v vals]; [reflexivity|]. cbn [pass2].
  rewrite (run_none cols (Forall_inv_tail F)). cbn [Nat.eqb]. apply IH. exact (Forall_inv_tail F).
Qed.
Definition ask (cols : list (N * N)) (vals : list (list N)) (c : nat) : nat :=
  measure (isupper (fst (nth c cols (97, 0)%N))) 0 0 (nth c vals []).
Lemma pass1_value : forall n cols c vals sz n' c', Forall (fun c => fst c <> 97%N) cols -> length vals = length cols ->
  pass1 n c cols vals sz n' c' =
  if (n' =? n) && (c <=? c') && (c' <? c + length cols) then Nat.max (sz n' c') (ask cols vals (c' - c)) else sz n' c'.
Proof.
  induction cols as [|[j i] cols IH]; intros c vals sz n' c' F L.
  - cbn [pass1 length]. rewrite Nat.add_0_r. destruct ((n' =? n) && (c <=? c') && (c' <? c)) eqn:E; [|reflexivity].
    apply andb_true_iff in E. destruct E as [E E3]. apply andb_true_iff in E. destruct E as [E1 E2]. apply Nat.ltb_lt in E3. apply Nat.leb_le in E2. lia.
  - destruct vals as [|v vals]; [discriminate|]. cbn [length] in L. cbn [pass1]. rewrite (run_none cols (Forall_inv_tail F)). cbn [Nat.eqb].
    rewrite IH; [|exact (Forall_inv_tail F)|lia]. unfold put. cbn [length].
    destruct (Nat.eqb_spec n' n) as [->|Hn]; cbn [andb]; [|reflexivity].
    destruct (Nat.lt_trichotomy c' c) as [Hc|[->|Hc]].
    + replace (c + 1 <=? c') with false by (symmetry; apply Nat.leb_gt; lia). replace (c <=? c') with false by (symmetry; apply Nat.leb_gt; lia). cbn [andb].
      replace (c' =? c) with false by (symmetry; apply Nat.eqb_neq; lia). reflexivity.
    + replace (c + 1 <=? c) with false by (symmetry; apply Nat.leb_gt; lia). rewrite Nat.leb_refl. cbn [andb]. rewrite Nat.eqb_refl.
      replace (c <? c + S (length cols)) with true by (symmetry; apply Nat.ltb_lt; lia). rewrite Nat.sub_diag. reflexivity.
    + replace (c + 1 <=? c') with true by (symmetry; apply Nat.leb_le; lia). replace (c <=? c') with true by (symmetry; apply Nat.leb_le; lia). cbn [andb].
      replace (c' =? c) with false by (symmetry; apply Nat.eqb_neq; lia).
      replace (c' <? c + 1 + length cols) with (c' <? c + S (length cols)) by (f_equal; lia).
      destruct (c' <? c + S (length cols)); [|reflexivity]. f_equal. unfold ask. replace (c' - c) with (S (c' - (c + 1))) by lia. reflexivity.
Qed.
Lemma all_sizes_simple : forall pad rows ms, Forall good_row rows -> Forall simple_row rows -> Forall2 kept rows ms -> forall n c, c < n ->
  all_sizes pad ms n c = column_needs rows n c.
Proof.
  intros pad rows ms G S K n c Hc. unfold all_sizes. cbv zeta.
  assert (P2 : forall sz, fold_left (fun sz r => pass2 pad (num_col r) 0 0 (d_cols (r_def r)) (r_vals r) sz) ms sz = sz).
  { clear G. induction K as [|r m rows ms K1 K2 IH]; intros sz; [reflexivity|]. cbn [fold_left]. destruct K1 as [Kd _]. rewrite Kd. cbn [def_of d_cols].
    rewrite pass2_none by exact (proj1 (Forall_inv S)). apply IH. exact (Forall_inv_tail S). }
  rewrite P2. clear P2.
  assert (P1 : forall sz, fold_left (fun sz r => pass1 (num_col r) 0 (d_cols (r_def r)) (r_vals r) sz) ms sz n c = Nat.max (sz n c) (column_needs rows n c)).
  { induction K as [|r m rows ms K1 K2 IH]; intros sz; [cbn; lia|]. cbn [fold_left]. rewrite IH by (apply (Forall_inv_tail G) || apply (Forall_inv_tail S)).
    destruct K1 as [Kd [Kl [Kv _]]]. unfold num_col. rewrite Kd. cbn [def_of d_cols]. destruct (Forall_inv S) as [S1 S2].
    rewrite pass1_value by assumption. unfold column_needs. cbn [map fold_right]. rewrite Nat.add_0_l, Nat.sub_0_r.
    unfold col, str in *. rewrite (Nat.eqb_sym (length (s_cols r)) n). destruct (Nat.eqb_spec n (length (s_cols r))) as [E|E]; cbn [andb]; [|cbn [Nat.max]; reflexivity].
    change (0 <=? c) with true. cbn [andb]. replace (c <? length (s_cols r)) with true by (symmetry; apply Nat.ltb_lt; lia).
    rewrite (vis_all _ _ _ S1 Kl) in Kv. rewrite Kv. unfold ask. destruct (Forall_inv G) as [_ [_ [O _]]].
    rewrite measure_needs; [lia| |].
    - rewrite Forall_forall in O. apply (O (nth c (s_cols r) (97, 0)%N)). apply nth_In. lia.
    - rewrite Forall_forall in S2. apply S2. apply nth_In. rewrite <- Kv, Kl. lia. }
  rewrite P1. reflexivity.
Qed.
Lemma cell_sizes_simple : forall spread pad sz u n cols c add, Forall (fun c => fst c <> 97%N) cols ->
  map fst (vis cols (cell_sizes spread pad sz u n c add cols)) = map (sz n) (seq c (length cols)).
Proof.
  induction cols as [|[j i] cols IH]; intros c add F; [reflexivity|]. rewrite cell_sizes_cons. pose proof (Forall_inv F) as Fj. cbn [fst] in Fj. cbn [vis].
  assert (E : is_a j = false) by (apply N.eqb_neq; exact Fj). rewrite E. cbn [vis map fst length seq]. rewrite (run_none cols (Forall_inv_tail F)). cbn [span_size].
  f_equal. rewrite Nat.add_1_r. apply IH. exact (Forall_inv_tail F).
Qed.

(** ** It prints *)
Lemma text_cells_some : forall cols szs ls, Forall ok_col cols -> fitc cols szs ls -> Forall (fun l => length l < 300) ls ->
  Forall (fun tc => fst tc < 2000 /\ snd tc - fst tc <= 600) (vis cols szs) ->
  exists s rs, text_cells cols szs ls = Ok (s, rs) /\ length (concat rs) <= length (concat ls) /\ Forall (fun l => length l < 300) rs
    /\ (existsb (fun l => negb (length l =? 0)) rs = true -> length (concat rs) < length (concat ls)).
Proof.
  induction cols as [|[j i] cols IH]; intros [|[tw cw] szs] [|l ls] O F B V; try (destruct F; fail).
  - exists [], []. repeat split; [cbn; lia|constructor|discriminate].
  - destruct F as [F1 F2]. cbn [text_cells vis] in *. pose proof (Forall_inv O) as [Hj _]. cbn [fst] in Hj. destruct (is_a j) eqn:E.
    + destruct (IH szs ls (Forall_inv_tail O) F2 (Forall_inv_tail B) V) as [s [rs [H1 [H2 [H3 H4]]]]]. rewrite H1. cbn [rbind]. exists s, ([] :: rs).
      split; [reflexivity|]. cbn [concat existsb length Nat.eqb negb orb app]. rewrite app_length. split; [lia|]. split; [constructor; [cbn; lia|exact H3]|]. intros Hx. specialize (H4 Hx). lia.
    + destruct (IH szs ls (Forall_inv_tail O) F2 (Forall_inv_tail B) (Forall_inv_tail V)) as [s [rs [H1 [H2 [H3 H4]]]]].
      destruct (Forall_inv V) as [V1 V2]. cbn [fst snd] in V1, V2. pose proof (Forall_inv B) as Bl. cbn beta in Bl.
      destruct (cell_some j tw cw l Bl V1 V2) as [s1 [rest Ec]]. rewrite Ec. cbn [rbind]. rewrite H1. cbn [rbind]. eexists. eexists. split; [reflexivity|].
      destruct (cell_ok _ _ _ _ _ _ (ok_shown j Hj E) (F1 eq_refl) Ec) as [p [Hn _]].
      assert (Hr : length rest <= length l /\ (l <> [] -> length rest < length l)).
      { split; [|apply (next_less tw l p rest Hn)]. destruct l as [|x l]; [destruct (next_nil _ _ _ Hn) as [_ ->]; lia|]. pose proof (next_less _ _ _ _ Hn ltac:(discriminate)). lia. }
      destruct Hr as [R1 R2]. cbn [concat]. rewrite !app_length. split; [lia|]. split; [constructor; [lia|exact H3]|]. intros Hx. cbn [existsb] in Hx. apply orb_true_iff in Hx. destruct Hx as [Hx|Hx].
      * destruct l as [|x l]; [destruct (next_nil _ _ _ Hn) as [_ Hz]; rewrite Hz in Hx; discriminate|]. specialize (R2 ltac:(discriminate)). lia.
      * specialize (H4 Hx). lia.
Qed.
Lemma text_lines_some : forall fuel cols szs ls, length (concat ls) < fuel -> Forall ok_col cols -> fitc cols szs ls -> Forall (fun l => length l < 300) ls ->
  Forall (fun tc => fst tc < 2000 /\ snd tc - fst tc <= 600) (vis cols szs) -> exists lines, text_lines fuel cols szs ls = Ok lines.
Proof.
  induction fuel as [|fuel IH]; intros cols szs ls Hf O F B V; [lia|]. cbn [text_lines].
  destruct (text_cells_some cols szs ls O F B V) as [s [rs [H1 [H2 [H3 H4]]]]]. pose proof (text_cells_ok _ _ _ _ _ O F H1) as [ps [_ [F' _]]].
  rewrite H1. cbn [rbind]. unfold str in *. destruct (existsb _ rs) eqn:Ex; [|eauto]. specialize (H4 eq_refl).
  destruct (IH cols szs rs ltac:(lia) O F' H3 V) as [more Hm]. rewrite Hm. cbn [rbind]. eauto.
Qed.
Lemma rows_some : forall spread pad sz w all, fair spread -> w <= 600 ->
  (forall m, In m all -> fit pad (num_col m) 0 (d_cols (r_def m)) (r_vals m) sz /\ just_width pad sz (r_def m) <= w /\ Forall (fun v => length v < 300) (r_vals m)) ->
  forall rows ms prev, (forall m, In m ms -> In m all) -> Forall good_row rows -> Forall2 kept rows ms -> exists ls, rows_lines spread pad sz w prev ms = Ok ls.
Proof.
  intros spread pad sz w all Hf Hw Ha rows. induction rows as [|r rows IH]; intros ms prev Hin G K; inversion K as [|a m c ms' K1 K2]; subst; [exists []; reflexivity|].
  cbn [rows_lines]. destruct (Ha m (Hin m ltac:(left; reflexivity))) as [A1 [A2 A3]]. pose proof K1 as [Kd [Kl [Kv _]]].
  unfold num_col in A1. rewrite Kd in A1, A2. cbn [def_of d_cols] in A1.
  pose proof (Forall_inv G) as Gr. pose proof Gr as [_ [_ [O _]]].
  pose proof (lens_width spread pad sz w r Hf Gr A2) as Hlen.
  assert (Ls : length (szs_of spread pad sz w (s_cols r)) = length (s_cols r)) by apply cell_sizes_length.
  pose proof (vis_length _ (s_cols r) _ Ls) as Lv.
  assert (Hp : Forall (fun tc => fst tc + 2 * pad <= snd tc) (W_of spread pad sz w (s_cols r))) by apply cell_sizes_pad.
  assert (V : Forall (fun tc => fst tc < 2000 /\ snd tc - fst tc <= 600) (vis (s_cols r) (szs_of spread pad sz w (s_cols r)))).
  { apply Forall_forall. intros tc Ht. rewrite Forall_forall in Hp. specialize (Hp tc Ht). pose proof (lens_ge (cells (s_cols r)) _ tc Ht Lv). unfold W_of in Hlen. lia. }
  destruct (text_lines_some (S (length (concat (r_vals m)))) (s_cols r) (szs_of spread pad sz w (s_cols r)) (r_vals m)) as [ts Ht];
    [lia|exact O|apply fitm_fitc; apply fit_fitm; assumption|exact A3|exact V|].
  assert (E1 : exists l1, row_lines spread pad sz w prev m = Ok l1).
  { unfold row_lines. rewrite Kd. cbn [def_of d_cols]. cbv zeta. unfold szs_of in Ht. unfold col, str in *. rewrite Ht. cbn [rbind]. eauto. }
  destruct E1 as [l1 E1]. rewrite E1. cbn [rbind].
  destruct (IH ms' (Some (d_cols (r_def m))) ltac:(intros; apply Hin; right; assumption) (Forall_inv_tail G) K2) as [l2 E2]. rewrite E2. cbn [rbind]. eauto.
Qed.
Lemma total_le : forall pad n B sz k c, (forall a b, sz a b <= B) -> total pad n c k sz <= k * (B + 2 * pad).
Proof. intros pad n B sz k. induction k as [|k IH]; intros c H; cbn [total]; [lia|]. specialize (IH (c + 1) H). specialize (H n c). nia. Qed.
Lemma eqs_le : forall cols, eqs cols <= length cols.
Proof. unfold eqs. induction cols as [|c cols IH]; [reflexivity|]. cbn [filter]. destruct (snd c =? 61)%N; cbn [length]; lia. Qed.
