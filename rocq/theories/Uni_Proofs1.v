(** Proofs about the unified report: formats, probabilities, legend. *)
From Coq Require Import String List ZArith NArith Arith Bool QArith Lia.
From Verif Require Import Base Store_Model Sgml_Model Sgml_Proofs1 Rpg_Model Rpg_Spec Sig_Model Sig_Spec Sig_Proofs1 Sig_Proofs2 Uni_Model Uni_Spec.
Import ListNotations.
Local Open Scope res_scope.
Local Open Scope nat_scope.

(** ** Formats *)
Lemma spell_app : forall a b, spell (a ++ b) = spell a ++ spell b.
Proof. intros. unfold spell. apply flat_map_app. Qed.
Lemma spell_as : forall m, spell (repeat (97, 32)%N m) = repeat 97%N m.
Proof. induction m as [|m IH]; [reflexivity|]. cbn [repeat]. change (97%N :: spell (repeat (97, 32)%N m) = 97%N :: repeat 97%N m). rewrite IH. reflexivity. Qed.
Lemma times_as : forall n, times n (bytes "aaa") = repeat 97%N (3 * n).
Proof. induction n as [|n IH]; [reflexivity|]. cbn [times]. rewrite IH. replace (3 * S n) with (S (S (S (3 * n)))) by lia. reflexivity. Qed.
Lemma spell_across : forall n, spell ((99, 32) :: repeat (97, 32) (3 * n + 2))%N = header_fmt n.
Proof.
  intros n. unfold header_fmt. rewrite times_as. change (99%N :: spell (repeat (97, 32)%N (3 * n + 2)) = bytes "ca" ++ repeat 97%N (3 * n) ++ bytes "a").
  rewrite spell_as. replace (3 * n + 2) with (1 + (3 * n + 1)) by lia. rewrite repeat_app, repeat_app. reflexivity.
Qed.
Lemma spell_threes : forall a b c n,
  spell (threes a b c n) = match n with O => [] | S m => [a; b; c] ++ times m (124%N :: [a; b; c]) ++ [61%N] end.
Proof.
  intros a b c n. induction n as [|n IH]; [reflexivity|]. cbn [threes app].
  change (spell ((a, 32)%N :: (b, 32)%N :: (c, bar n) :: threes a b c n)) with ([a; b; c] ++ (if (bar n =? 32)%N then [] else [bar n]) ++ spell (threes a b c n)).
  rewrite IH. destruct n as [|n]; [reflexivity|]. cbn [bar times app]. reflexivity.
Qed.
Lemma spell_grid : forall a b c n, spell (grid_cols a b c n) = bytes "c=c" ++ times n (124%N :: [a; b; c]) ++ bytes "=c".
Proof.
  intros a b c n. unfold grid_cols. rewrite !spell_app, spell_threes. destruct n as [|n]; [reflexivity|]. cbn [bar times].
  change (spell [(99, 61); (99, 124)]%N) with (bytes "c=c" ++ [124%N]). rewrite <- !app_assoc. cbn [app]. reflexivity.
Qed.
Lemma spell_title : forall n, spell (grid_cols 99 97 97 n) = title_fmt n.
Proof. intros. rewrite spell_grid. reflexivity. Qed.
Lemma spell_rows : forall n, spell (grid_cols 114 114 108 n) = row_fmt n.
Proof. intros. rewrite spell_grid. reflexivity. Qed.
Lemma spell_ones : forall n, spell (ones n) = mcn_fmt n.
Proof.
  induction n as [|n IH]; [reflexivity|]. cbn [ones]. change (99%N :: 124%N :: spell (ones n) = mcn_fmt (S n)). rewrite IH. reflexivity.
Qed.
Lemma times_length : forall n s, length (times n s) = n * length s.
Proof. induction n as [|n IH]; intros s; [reflexivity|]. cbn [times]. rewrite app_length, IH. reflexivity. Qed.
Lemma title_length : forall n, length (title_fmt n) = 5 + 4 * n.
Proof. intros. unfold title_fmt. rewrite !app_length, times_length. change (length (bytes "c=c")) with 3. change (length (bytes "|caa")) with 4. change (length (bytes "=c")) with 2. lia. Qed.
Lemma mcn_length : forall n, length (mcn_fmt n) = 1 + 2 * n.
Proof. intros. unfold mcn_fmt. rewrite !app_length, times_length. change (length (bytes "c")) with 1. change (length (bytes "|c")) with 2. lia. Qed.

(** ** Good columns *)
Definition good_cols (cols : list (N * N)) : Prop :=
  cols <> [] /\ fst (hd (97%N, 0%N) cols) <> 97%N
  /\ Forall (fun c => In (fst c) [99; 67; 108; 76; 114; 82; 97]%N /\ In (snd c) [32; 124; 61]%N) cols
  /\ bars_between cols.
Lemma across_good : forall n, good_cols ((99, 32) :: repeat (97, 32) (3 * n + 2))%N.
Proof.
  intros n. split; [discriminate|]. split; [discriminate|]. split.
  - constructor; [cbn; auto 10|]. apply Forall_forall. intros c Hc. apply repeat_spec in Hc. subst. cbn. auto 10.
  - cbn [bars_between]. split; [discriminate|]. induction (3 * n + 2) as [|m IH]; [exact I|]. cbn [repeat bars_between]. split; [discriminate|exact IH].
Qed.
Lemma bar_in : forall n, In (bar n) [32; 124; 61]%N.
Proof. destruct n; cbn; auto. Qed.
Lemma grid_good : forall a b c n, In a [99; 114]%N -> In b [114; 97]%N -> In c [97; 108]%N -> good_cols (grid_cols a b c n).
Proof.
  intros a b c n Ha Hb Hc. unfold grid_cols. split; [discriminate|]. split; [discriminate|].
  assert (A : In a [99; 67; 108; 76; 114; 82; 97]%N) by (cbn in *; intuition).
  assert (B : In b [99; 67; 108; 76; 114; 82; 97]%N) by (cbn in *; intuition).
  assert (D : In c [99; 67; 108; 76; 114; 82; 97]%N) by (cbn in *; intuition).
  assert (A' : a <> 97%N) by (cbn in Ha; intuition subst; discriminate). split.
  - apply Forall_app. split; [constructor; [cbn; auto 10|]; constructor; [split; [cbn; auto|apply bar_in]|constructor]|]. apply Forall_app. split; [|constructor; [cbn; auto 10|constructor]].
    induction n as [|n IH]; [constructor|]. cbn [threes app]. constructor; [split; [exact A|cbn; auto]|]. constructor; [split; [exact B|cbn; auto]|]. constructor; [split; [exact D|apply bar_in]|exact IH].
  - cbn [app bars_between]. split; [intros _; discriminate|].
    assert (G : forall x, bars_between ((x, bar n) :: threes a b c n ++ [(99, 32)]%N)).
    { induction n as [|n IH]; intros x.
      - cbn [threes app bars_between bar]. split; [intros _; discriminate|]. split; [intros K; discriminate K|exact I].
      - cbn [threes app bars_between bar]. split; [discriminate|]. split; [discriminate|]. split; [discriminate|]. exact (IH c). }
    apply (G 99%N).
Qed.
Lemma ones_good : forall n, good_cols (ones n).
Proof.
  intros n. split; [destruct n; discriminate|]. split; [destruct n; discriminate|]. split.
  - induction n; cbn [ones]; constructor; cbn; auto 10.
  - induction n as [|n IH]; cbn [ones bars_between]; [split; [discriminate|exact I]|]. split; [discriminate|exact IH].
Qed.
Lemma visible_app : forall a b, visible (a ++ b) = visible a ++ visible b.
Proof. intros. apply filter_app. Qed.
Lemma visible_across : forall n, length (visible ((99, 32) :: repeat (97, 32) (3 * n + 2))%N) = 1.
Proof.
  intros n. change (S (length (visible (repeat (97, 32)%N (3 * n + 2)))) = 1). f_equal. induction (3 * n + 2) as [|m IH]; [reflexivity|exact IH].
Qed.
Lemma visible_rows : forall n, length (visible (grid_cols 114 114 108 n)) = 3 * n + 3.
Proof.
  intros n. unfold grid_cols. rewrite !visible_app, !app_length. change (length (visible [(99, 61); (99, bar n)]%N)) with 2. change (length (visible [(99, 32)]%N)) with 1.
  assert (G : length (visible (threes 114 114 108 n)) = 3 * n).
  { induction n as [|n IH]; [reflexivity|]. cbn [threes app]. change (S (S (S (length (visible (threes 114 114 108 n))))) = 3 * S n). rewrite IH. lia. }
  rewrite G. lia.
Qed.
Lemma visible_title : forall n, length (visible (grid_cols 99 97 97 n)) = n + 3.
Proof.
  intros n. unfold grid_cols. rewrite !visible_app, !app_length. change (length (visible [(99, 61); (99, bar n)]%N)) with 2. change (length (visible [(99, 32)]%N)) with 1.
  assert (G : length (visible (threes 99 97 97 n)) = n).
  { induction n as [|n IH]; [reflexivity|]. cbn [threes app]. change (S (length (visible (threes 99 97 97 n))) = S n). rewrite IH. lia. }
  rewrite G. lia.
Qed.
Lemma visible_ones : forall n, length (visible (ones n)) = n + 1.
Proof. induction n as [|n IH]; [reflexivity|]. cbn [ones]. change (S (length (visible (ones n))) = S n + 1). rewrite IH. lia. Qed.

(** ** Probabilities *)
Lemma thousandths_near : forall q, (inject_Z 1000 * q - (1 # 2) <= inject_Z (thousandths q) /\ inject_Z (thousandths q) <= inject_Z 1000 * q + (1 # 2))%Q.
Proof.
  intros [n d]. unfold thousandths. cbn [Qnum Qden]. set (f := (n * 1000 / Z.pos d)%Z). set (r := (n * 1000 mod Z.pos d)%Z).
  pose proof (Z.div_mod (n * 1000) (Z.pos d) ltac:(lia)) as E. fold f r in E. pose proof (Z.mod_pos_bound (n * 1000) (Z.pos d) ltac:(lia)) as B. fold r in B.
  assert (G : forall k, (2 * (n * 1000) - Z.pos d <= 2 * (k * Z.pos d) <= 2 * (n * 1000) + Z.pos d)%Z ->
    (inject_Z 1000 * (n # d) - (1 # 2) <= inject_Z k /\ inject_Z k <= inject_Z 1000 * (n # d) + (1 # 2))%Q).
  { intros k K. unfold Qle, Qminus, Qplus, Qopp, Qmult, inject_Z. cbn [Qnum Qden]. rewrite !Pos2Z.inj_mul. split; nia. }
  destruct (Z.ltb_spec (2 * r) (Z.pos d)); [apply G; nia|]. destruct (Z.ltb_spec (Z.pos d) (2 * r)); [apply G; nia|].
  destruct (Z.even f); apply G; nia.
Qed.
Lemma f3_near : forall q, nearest_to q (f3 q).
Proof. intros q. exists (thousandths q). split; [apply atof_in_fixed|apply thousandths_near]. Qed.
Lemma qlt_true : forall p q, qlt p q = true <-> (p < q)%Q.
Proof.
  intros p q. unfold qlt. rewrite negb_true_iff. destruct (Qle_bool q p) eqn:E.
  - split; [discriminate|]. intros H. apply Qle_bool_iff in E. exfalso. exact (Qlt_not_le _ _ H E).
  - split; [|reflexivity]. intros _. destruct (Qlt_le_dec p q) as [H|H]; [exact H|]. apply Qle_bool_iff in H. congruence.
Qed.
Lemma qle_false : forall p q, (q < p)%Q -> Qle_bool p q = false.
Proof. intros p q H. destruct (Qle_bool p q) eqn:E; [|reflexivity]. apply Qle_bool_iff in E. exfalso. exact (Qlt_not_le _ _ H E). Qed.
Definition printed : print := {| number := p_text; stars := Uni_Model.stars |}.
Lemma close001 : close p001 (1 # 1000). Proof. split; vm_compute; discriminate. Qed.
Lemma close01 : close p01 (1 # 100). Proof. split; vm_compute; discriminate. Qed.
Lemma close05 : close p05 (1 # 20). Proof. split; vm_compute; discriminate. Qed.
Lemma printed_faithful : faithful printed.
Proof.
  assert (L1 : (p001 < p01)%Q) by reflexivity. assert (L2 : (p01 < p05)%Q) by reflexivity.
  exists p001, p01, p05. split; [exact close001|]. split; [exact close01|]. split; [exact close05|].
  intros q. cbn [number stars printed]. unfold p_text, Uni_Model.stars. repeat split.
  - intros H. apply qlt_true in H. rewrite H. reflexivity.
  - intros H. destruct (qlt q p001) eqn:E; [apply qlt_true in E; exfalso; exact (Qlt_not_le _ _ E H)|apply f3_near].
  - intros H. apply Qle_bool_iff in H. rewrite H. reflexivity.
  - intros H1 H2. rewrite (qle_false _ _ H1). apply Qle_bool_iff in H2. rewrite H2. reflexivity.
  - intros H1 H2. rewrite (qle_false _ _ (Qlt_trans _ _ _ L1 H1)), (qle_false _ _ H1). apply Qle_bool_iff in H2. rewrite H2. reflexivity.
  - intros H. rewrite (qle_false _ _ (Qlt_trans _ _ _ (Qlt_trans _ _ _ L1 L2) H)), (qle_false _ _ (Qlt_trans _ _ _ L2 H)), (qle_false _ _ H). reflexivity.
Qed.
Definition mcn_printed : print := {| number := fun q => f3 (if qlt q p001 then p001 else q); stars := fun _ => [] |}.
Lemma mcn_floored : floored mcn_printed.
Proof.
  exists p001. split; [exact close001|]. intros q. cbn [number mcn_printed]. split; intros H.
  - destruct (qlt q p001) eqn:E; [apply qlt_true in E; exfalso; exact (Qlt_not_le _ _ E H)|apply f3_near].
  - apply qlt_true in H. rewrite H. apply f3_near.
Qed.
