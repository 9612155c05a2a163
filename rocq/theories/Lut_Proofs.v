(** Proofs about the labelled utterance report of one system. *)
From Coq Require Import String List ZArith NArith Arith Bool QArith Lia Lqa.
From Verif Require Import Base Store_Model Sgml_Model Sgml_Proofs1 Rpg_Model Rpg_Spec Sig_Proofs2 Uni_Spec Uni_Proofs1 Uni_Proofs2 Stats_Spec Order_Model Order_Spec Summ_Model Summ_Spec Summ_Proofs1 Summ_Proofs3 Lur_Model Lut_Model Lut_Spec.
Import ListNotations.
Local Open Scope res_scope.
Local Open Scope nat_scope.

(** ** Numbers *)
Definition rnd (x : Q) : Z := trunc (x * inject_Z 10 + (if Qle_bool x 0 then - (1 # 2) else 1 # 2)).
Definition shown : print :=
  {| Lut_Spec.number := fun x => fixed 1 (rnd x); Lut_Spec.whole := fun x => bytes "[" ++ int_text (trunc x) ++ bytes "]" |}.
Lemma f_round1 : forall x, f_round x 1 = if in_int (rnd x) then Ok (inject_Z (rnd x) / inject_Z 10)%Q else Undef.
Proof. reflexivity. Qed.
Lemma tenths_ok : forall t, tenths (inject_Z t / inject_Z 10) = t.
Proof.
  intros t. unfold tenths, trunc, Qdiv, Qmult, Qinv, inject_Z. cbn [Qnum Qden]. change (Z.pos (1 * 10 * 1)) with 10%Z. rewrite Z.mul_1_r. apply Z.quot_mul. discriminate.
Qed.
Lemma number_ok : forall x s, Lut_Model.number x = Ok s -> s = Lut_Spec.number shown x.
Proof.
  intros x s H. unfold Lut_Model.number in H. rewrite f_round1 in H. destruct (in_int (rnd x)); [|discriminate H]. cbn [rbind] in H. apply ok_inj in H. rewrite tenths_ok in H. symmetry. exact H.
Qed.
Lemma whole_ok : forall x s, Lut_Model.whole x = Ok s -> s = Lut_Spec.whole shown x.
Proof. intros x s H. unfold Lut_Model.whole in H. destruct (in_int (trunc x)); [|discriminate H]. apply ok_inj in H. symmetry. exact H. Qed.
Lemma rnd_twice : forall t, rnd (inject_Z t / inject_Z 10) = t.
Proof.
  intros t. unfold rnd. destruct (Qle_bool (inject_Z t / inject_Z 10) 0) eqn:E.
  - apply Qle_bool_iff in E. assert (T : (t <= 0)%Z). { unfold Qle, Qdiv, Qmult, Qinv, inject_Z in E. cbn [Qnum Qden] in E. lia. }
    unfold trunc, Qdiv, Qmult, Qinv, Qplus, Qopp, inject_Z. cbn [Qnum Qden]. change (Z.pos (1 * 10 * 1 * 2)) with 20%Z. change (Z.pos (1 * 10 * 1)) with 10%Z.
    replace (t * 1 * 10 * 2 + - (1) * 10)%Z with (- (- t * 20 + 10))%Z by lia. rewrite Z.quot_opp_l by lia. rewrite Z.quot_div_nonneg by lia. rewrite Z.div_add_l by lia. change (10 / 20)%Z with 0%Z. lia.
  - assert (T : (0 < t)%Z). { destruct (Z.leb_spec t 0) as [K|K]; [|lia]. assert (X : (inject_Z t / inject_Z 10 <= 0)%Q); [|apply Qle_bool_iff in X; congruence]. unfold Qle, Qdiv, Qmult, Qinv, inject_Z. cbn [Qnum Qden]. lia. }
    unfold trunc, Qdiv, Qmult, Qinv, Qplus, Qopp, inject_Z. cbn [Qnum Qden]. change (Z.pos (1 * 10 * 1 * 2)) with 20%Z. change (Z.pos (1 * 10 * 1)) with 10%Z.
    rewrite Z.quot_div_nonneg by lia. replace (t * 1 * 10 * 2 + 1 * 10)%Z with (t * 20 + 10)%Z by lia. rewrite Z.div_add_l by lia. change (10 / 20)%Z with 0%Z. lia.
Qed.
Lemma shown_faithful : faithful shown.
Proof.
  split.
  - intros x H. destruct (f_round_ok x 1 H) as (r & E & R). rewrite f_round1 in E. destruct (in_int (rnd x)); [|discriminate E]. apply ok_inj in E. exists (rnd x). split; [apply atof_in_fixed|]. rewrite E. exact R.
  - intros x H. exists (Z.to_nat (trunc x)). cbn [Lut_Spec.whole shown]. destruct x as [n d]. unfold Qle, Qlt, nq, Qplus, inject_Z, trunc in *. cbn [Qnum Qden] in *.
    assert (N0 : (0 <= n)%Z) by lia. rewrite Z.quot_div_nonneg by lia. rewrite Z2Nat.id by (apply Z.div_pos; lia). split; [reflexivity|].
    pose proof (Z.div_mod n (Z.pos d) ltac:(lia)). pose proof (Z.mod_pos_bound n (Z.pos d) ltac:(lia)). split; nia.
Qed.

(** ** Columns *)
Lemma same_alike : forall a b, same_loc a b = if alike a b then true else false.
Proof.
  intros a b. destruct (alike a b) as [->|H].
  - destruct b as [n|]; cbn; [apply Nat.eqb_refl|reflexivity].
  - destruct a as [m|], b as [n|]; cbn; try reflexivity; [|destruct H; reflexivity]. apply Nat.eqb_neq. intros ->. apply H. reflexivity.
Qed.
Definition two (f : bool -> N * N) (s : bool) : str := [fst (f s); snd (f s)].
Lemma spell_after : forall f r l x, spell ((x, bar_after l r) :: after f l r) = x :: labels_fmt (two f) (Some l) r.
Proof.
  intros f r. induction r as [|m r IH]; intros l x; [reflexivity|]. cbn [after labels_fmt bar_after]. rewrite same_alike.
  specialize (IH m). destruct (alike l m) as [H|H], (alike m l) as [H'|H']; try congruence; cbn [negb].
  - match goal with |- spell (_ :: _ :: ?c :: ?t) = _ => change (x :: 124%N :: fst (f false) :: spell (c :: t) = x :: bytes "|" ++ two f false ++ labels_fmt (two f) (Some m) r) end. rewrite IH. reflexivity.
  - match goal with |- spell (_ :: _ :: ?c :: ?t) = _ => change (x :: 61%N :: fst (f true) :: spell (c :: t) = x :: bytes "=" ++ two f true ++ labels_fmt (two f) (Some m) r) end. rewrite IH. reflexivity.
Qed.
Lemma spell_columns : forall f locs, spell (columns f locs) = bytes "c" ++ labels_fmt (two f) None locs.
Proof.
  intros f [|l r]; [reflexivity|]. cbn [columns labels_fmt]. match goal with |- spell (_ :: _ :: ?c :: ?t) = _ => change (99%N :: 124%N :: fst (f true) :: spell (c :: t) = bytes "c" ++ bytes "|" ++ two f true ++ labels_fmt (two f) (Some l) r) end.
  rewrite spell_after. reflexivity.
Qed.
Lemma fmt_ext : forall c d, (forall s, c s = d s) -> forall locs prev, labels_fmt c prev locs = labels_fmt d prev locs.
Proof. intros c d H locs. induction locs as [|l r IH]; intros prev; [reflexivity|]. cbn [labels_fmt]. rewrite H, IH. reflexivity. Qed.
Lemma spell_title : forall locs, spell (columns one_title locs) = title_fmt locs.
Proof. intros. rewrite spell_columns. reflexivity. Qed.
Lemma spell_row : forall locs, spell (columns two_numbers locs) = row_fmt locs.
Proof. intros. rewrite spell_columns. reflexivity. Qed.
Lemma spell_categ : forall locs, spell (columns field_title locs) = categ_fmt locs.
Proof. intros. rewrite spell_columns. unfold categ_fmt. f_equal. apply fmt_ext. intros []; reflexivity. Qed.
Lemma fmt_length : forall f locs prev, length (labels_fmt (two f) prev locs) = 3 * length locs.
Proof.
  intros f locs. induction locs as [|l r IH]; intros prev; [reflexivity|]. cbn [labels_fmt]. rewrite !app_length, IH.
  match goal with |- length (if ?b then _ else _) + _ = _ => destruct b end; [change (length (bytes "=")) with 1|change (length (bytes "|")) with 1]; cbn [length two]; lia.
Qed.
Lemma columns_length : forall f locs, length (spell (columns f locs)) = 1 + 3 * length locs.
Proof. intros. rewrite spell_columns, app_length, fmt_length. reflexivity. Qed.
Definition letters (f : bool -> N * N) : Prop :=
  (forall s, In (fst (f s)) [99; 114; 97]%N /\ In (snd (f s)) [99; 114; 97]%N) /\ fst (f true) <> 97%N.
Lemma bar_ok : forall l r, In (bar_after l r) [32; 124; 61]%N.
Proof. intros l [|m r]; cbn [bar_after]; [cbn; auto|]. destruct (alike l m); cbn; auto. Qed.
Lemma columns_good : forall f locs, letters f -> good_cols (columns f locs).
Proof.
  intros f locs (F1 & F2).
  assert (L : forall c, In c [99; 114; 97]%N -> In c [99; 67; 108; 76; 114; 82; 97]%N) by (intros c; cbn; tauto).
  assert (A1 : forall r l, Forall (fun c => In (fst c) [99; 67; 108; 76; 114; 82; 97]%N /\ In (snd c) [32; 124; 61]%N) (after f l r)).
  { induction r as [|m r IH]; intros l; cbn [after]; constructor; [split; [apply L, F1|cbn; auto]|]. constructor; [split; [apply L, F1|apply bar_ok]|apply IH]. }
  assert (A2 : forall r l x, bars_between ((x, bar_after l r) :: after f l r)).
  { induction r as [|m r IH]; intros l x; [cbn; split; [discriminate|exact I]|]. cbn [after]. split.
    - intros K. cbn [bar_after] in K. destruct (alike l m); [discriminate K|]. exact F2.
    - split; [discriminate|]. apply IH. }
  destruct locs as [|l r]; cbn [columns].
  - repeat split; try discriminate. constructor; [cbn; auto 10|constructor].
  - split; [discriminate|]. split; [discriminate|]. split.
    + constructor; [cbn; auto 10|]. constructor; [split; [apply L, F1|cbn; auto]|]. constructor; [split; [apply L, F1|apply bar_ok]|apply A1].
    + split; [discriminate|]. split; [discriminate|]. apply A2.
Qed.
Lemma title_letters : letters one_title. Proof. split; [intros s; cbn; auto|discriminate]. Qed.
Lemma number_letters : letters two_numbers. Proof. split; [intros s; cbn; auto|discriminate]. Qed.
Lemma field_letters : letters field_title. Proof. split; [intros []; cbn; auto|discriminate]. Qed.
Lemma takes_visible : forall cols, Forall (fun c => In (fst c) [99; 67; 108; 76; 114; 82; 97]%N /\ In (snd c) [32; 124; 61]%N) cols ->
  takes (spell cols) = length (visible cols).
Proof.
  intros cols H. induction H as [|[a b] cols (A & B) H IH]; [reflexivity|].
  change (spell ((a, b) :: cols)) with ((a :: (if (b =? 32)%N then [] else [b])) ++ spell cols). unfold takes in *. rewrite filter_app, app_length, IH.
  cbn [fst snd] in *. unfold visible. cbn [filter fst]. cbn [In] in A, B. intuition (subst a b; reflexivity).
Qed.
Lemma visible_two : forall f locs, (forall s, fst (f s) <> 97%N /\ snd (f s) <> 97%N) -> length (visible (columns f locs)) = 1 + 2 * length locs.
Proof.
  intros f locs F.
  assert (N1 : forall s, (fst (f s) =? 97)%N = false) by (intros s; apply N.eqb_neq, F). assert (N2 : forall s, (snd (f s) =? 97)%N = false) by (intros s; apply N.eqb_neq, F).
  assert (A : forall r l, length (visible (after f l r)) = 2 * length r).
  { induction r as [|m r IH]; intros l; [reflexivity|]. cbn [after]. unfold visible in *. cbn [filter fst]. rewrite N1, N2. cbn [negb length]. rewrite IH. lia. }
  destruct locs as [|l r]; [reflexivity|]. cbn [columns]. unfold visible in *. cbn [filter fst]. rewrite N1, N2. cbn [negb length]. change (99 =? 97)%N with false. cbn [negb length]. rewrite A. lia.
Qed.
Lemma visible_title : forall locs, length (visible (columns one_title locs)) = 1 + length locs.
Proof.
  intros locs. assert (A : forall r l, length (visible (after one_title l r)) = length r).
  { induction r as [|m r IH]; intros l; [reflexivity|]. cbn [after]. unfold visible in *. cbn [filter fst one_title]. cbn. f_equal. apply IH. }
  destruct locs as [|l r]; [reflexivity|]. cbn [columns]. unfold visible in *. cbn [filter fst snd one_title]. cbn. do 2 f_equal. apply A.
Qed.
Lemma visible_field : forall locs, length (visible (columns field_title locs)) = 1 + runs locs.
Proof.
  intros locs. assert (A : forall r l, length (visible (after field_title l r)) = runs_after l r).
  { induction r as [|m r IH]; intros l; [reflexivity|]. cbn [after runs_after]. specialize (IH m). unfold visible in *. destruct (alike l m); cbn [filter fst snd field_title]; cbn; [apply IH|f_equal; apply IH]. }
  destruct locs as [|l r]; [reflexivity|]. cbn [columns]. unfold visible in *. cbn [filter fst snd field_title runs]. cbn. do 2 f_equal. apply A.
Qed.

(** ** Rows made value by value *)
Lemma firstn_nth : forall k (l : list str), k <= length l -> firstn k l = map (fun g => nth g l []) (seq 0 k).
Proof.
  induction k as [|k IH]; intros [|a l] H; cbn [length] in H; try reflexivity; [lia|]. cbn [firstn seq map nth]. f_equal. rewrite <- seq_shift, map_map. apply IH. lia.
Qed.
Lemma pad_nth : forall k (v : list str) m, k <= length v + m -> firstn k (v ++ repeat [] m) = map (fun g => nth g v []) (seq 0 k).
Proof.
  intros k v m H. rewrite firstn_nth by (rewrite app_length, repeat_length; lia). apply map_ext. intros n.
  destruct (Nat.ltb_spec n (length v)) as [L|L]; [apply app_nth1; exact L|]. rewrite app_nth2 by exact L. rewrite nth_repeat. symmetry. apply nth_overflow. exact L.
Qed.
Lemma flush_inv : forall cols vals o, good_cols cols -> length (spell cols) <= 50 -> flush (spell cols) vals = Ok o ->
  Forall (fun v => length v < 2000) vals /\ o = Row (spell cols) (map (fun g => nth g vals []) (seq 0 (length (visible cols)))).
Proof.
  intros cols vals o (_ & _ & G & _) L H. unfold flush in H. destruct (60 <? length vals); [discriminate H|].
  match goal with K : (if ?b then _ else _) = _ |- _ => destruct b eqn:E; [discriminate H|] end. apply ok_inj in H. split.
  - apply Forall_forall. intros v Hv. destruct (Nat.leb_spec 2000 (length v)) as [K|K]; [|exact K]. exfalso.
    assert (X : existsb (fun v => 2000 <=? length v) vals = true) by (apply existsb_exists; exists v; split; [exact Hv|apply Nat.leb_le; exact K]). congruence.
  - subst o. f_equal. rewrite <- takes_visible by exact G. apply pad_nth. unfold takes.
    assert (X : forall (p : N -> bool) l, length (filter p l) <= length l) by (intros p l; induction l as [|a l IH]; cbn; [lia|destruct (p a); cbn; lia]).
    match goal with |- length (filter ?p ?l) <= _ => pose proof (X p l) as Y end. unfold str, Rpg_Model.str, Store_Model.str in *. lia.
Qed.
Lemma all_nth : forall (v : list str), map (fun g => nth g v []) (seq 0 (length v)) = v.
Proof. intros v. rewrite <- firstn_nth by lia. apply firstn_all. Qed.
Lemma flush_full : forall cols vals o, good_cols cols -> length (spell cols) <= 50 -> length vals = length (visible cols) -> flush (spell cols) vals = Ok o ->
  [o] = calls (mkrow cols vals) /\ good_row (mkrow cols vals).
Proof.
  intros cols vals o G L V H. destruct (flush_inv _ _ _ G L H) as (F & ->). rewrite <- V, all_nth. split; [reflexivity|].
  unfold mkrow. apply good_mk; try assumption; [lia|]. intros K. destruct K. reflexivity.
Qed.
Lemma under_calls : forall c r, calls (under [c] r) = Separation c true :: calls r.
Proof. reflexivity. Qed.
Lemma under_good : forall b r, good_row r -> good_row (under b r).
Proof. intros b r (A & B & C & D & E & F & G & H). repeat split; assumption. Qed.
Lemma each_forall2 : forall {A B} (f : A -> res B) l ys, each f l = Ok ys -> Forall2 (fun x y => f x = Ok y) l ys.
Proof.
  intros A B f l. induction l as [|x l IH]; intros ys H; cbn [each] in H; [apply ok_inj in H; subst; constructor|].
  next H. next H. apply ok_inj in H. subst ys. constructor; [exact E|apply IH; exact E0].
Qed.
