(** Lemmas for the word weighted scores. *)
From Coq Require Import String List Arith ZArith NArith QArith Bool Lia.
From Verif Require Import Base Text_Model Word_Model Store_Model NetDp_Model Path_Model Wwl_Model Wws_Model Wws_Spec.
From Verif Require Wwl_Proofs1.
Import ListNotations.
Local Open Scope res_scope.
Local Open Scope nat_scope.

Lemma sum_app v a b : sum v (a ++ b) = (sum v a + sum v b)%Z.
Proof. induction a as [|x a IH]; cbn; [reflexivity|]. unfold sum in IH |- *. rewrite IH. lia. Qed.
Lemma texts_app side kind a b : texts side kind (a ++ b) = texts side kind a ++ texts side kind b.
Proof. apply flat_map_app. Qed.
Lemma score_app v a b : score_of v (a ++ b) = plus (score_of v a) (score_of v b).
Proof. unfold score_of, plus. cbn [u_ref u_corr u_sub u_ins u_del]. rewrite !texts_app, !sum_app. f_equal; lia. Qed.
Lemma score_nil v : score_of v [] = zero. Proof. reflexivity. Qed.
Lemma plus_zero u : plus zero u = u.
Proof. destruct u. reflexivity. Qed.
Lemma plus_zero_r u : plus u zero = u.
Proof. destruct u as [a b c d g]. unfold plus, zero. cbn [u_ref u_corr u_sub u_ins u_del]. rewrite !Z.add_0_r. reflexivity. Qed.
Lemma plus_assoc a b c : plus a (plus b c) = plus (plus a b) c.
Proof. unfold plus. cbn [u_ref u_corr u_sub u_ins u_del]. f_equal; lia. Qed.
Lemma step_ok W v s u : known W v s -> step_sums W s u = Ok (plus u (score_of v [s])).
Proof.
  destruct s as [[[a|] [b|]] []]; cbn [known]; try contradiction; unfold step_sums, wt, value, score_of, plus, texts, sum, ref_side, hyp_side; intros H;
    try destruct H as (H & H'); cbn [rbind flat_map fst snd is_corr is_sub is_ins is_del negb app fold_right u_ref u_corr u_sub u_ins u_del];
    rewrite H; cbn [rbind]; rewrite ?H'; cbn [rbind]; f_equal; f_equal; lia.
Qed.
Lemma path_ok W v p : Forall (known W v) p -> forall u, path_sums W p u = Ok (plus u (score_of v p)).
Proof.
  induction 1 as [|s p H F IH]; intros u; cbn [path_sums].
  - rewrite score_nil, plus_zero_r. reflexivity.
  - rewrite (step_ok W v s u H). cbn [rbind]. rewrite IH. change (s :: p) with ([s] ++ p). rewrite score_app, plus_assoc. reflexivity.
Qed.
Lemma spkr_ok W v ps : Forall (Forall (known W v)) ps -> forall u, spkr_sums W ps u = Ok (plus u (score_of v (concat ps))).
Proof.
  induction 1 as [|p ps H F IH]; intros u; cbn [spkr_sums concat].
  - rewrite score_nil, plus_zero_r. reflexivity.
  - rewrite (path_ok W v p H). cbn [rbind]. rewrite IH, score_app, plus_zero, plus_assoc. reflexivity.
Qed.
Lemma all_ok W v sc : Forall (fun p => Forall (Forall (known W v)) (snd p)) sc -> forall all spk,
  all_sums W sc all spk = Ok (plus all (score_of v (steps_of sc)), spk ++ map (fun p => (fst p, score_of v (concat (snd p)))) sc).
Proof.
  induction 1 as [|(name, ps) sc H F IH]; intros all spk; cbn [all_sums].
  - unfold steps_of. cbn [flat_map concat map]. rewrite score_nil, app_nil_r, plus_zero_r. reflexivity.
  - cbn [snd] in H. rewrite (spkr_ok W v ps H). cbn [rbind]. rewrite IH. unfold steps_of. cbn [flat_map snd map fst]. rewrite concat_app, score_app, plus_zero, plus_assoc, <- app_assoc. reflexivity.
Qed.
Lemma sum_one p kind side : (forall s, In s p -> kind (snd s) = true -> side s <> None) -> sum (fun _ => 1000%Z) (texts side kind p) = (1000 * number kind p)%Z.
Proof.
  unfold number. induction p as [|s p IH]; intros H; [reflexivity|]. cbn [texts flat_map filter].
  change (flat_map _ p) with (texts side kind p). rewrite sum_app, IH by (intros s' I; apply H; right; exact I).
  destruct (kind (snd s)) eqn:E; [|cbn; lia]. destruct (side s) eqn:ES; [|exfalso; apply (H s (or_introl eq_refl) E ES)]. cbn [length sum fold_right]. lia.
Qed.

(** ** The table *)
Definition filled (t : table) (fs : list func) : Prop :=
  t_num t = length fs /\ firstn (length fs) (t_func t) = map Some fs /\ length fs <= length (t_func t) /\ 1 <= length (t_func t).
Lemma push_ok t fs f : filled t fs -> length fs < length (t_func t) -> exists t', push t f = Ok t' /\ filled t' (fs ++ [f]).
Proof.
  intros (N1 & F & L & L1) LT. unfold push. rewrite N1, Wwl_Proofs1.set_split by exact LT. cbn [rbind]. eexists. split; [reflexivity|].
  unfold filled. cbn [t_num t_func]. rewrite F.
  assert (LS : length (map Some fs ++ Some f :: skipn (S (length fs)) (t_func t)) = length (t_func t)).
  { rewrite app_length, map_length. cbn [length]. rewrite skipn_length. lia. }
  rewrite LS, app_length. cbn [length]. repeat split; try lia.
  rewrite firstn_app, map_length, firstn_all2 by (rewrite map_length; lia).
  replace (length fs + 1 - length fs) with 1 by lia. rewrite map_app. reflexivity.
Qed.
Lemma make_room t fs : filled t fs -> exists t', (if length (t_func t) <=? t_num t then expand t else Ok t) = Ok t' /\ filled t' fs /\ length fs < length (t_func t').
Proof.
  intros (N1 & F & L & L1). destruct (Nat.leb_spec (length (t_func t)) (t_num t)).
  - unfold expand. destruct (Nat.ltb_spec (length (t_func t)) 1); [lia|]. eexists. split; [reflexivity|]. unfold filled. cbn [t_num t_func].
    rewrite app_length, repeat_length. repeat split; try lia; try exact N1. rewrite firstn_app. replace (length fs - length (t_func t)) with 0 by lia. rewrite firstn_O, app_nil_r. exact F.
  - exists t. split; [reflexivity|]. split; [repeat split; assumption|lia].
Qed.
Lemma columns_ok e sc l : forall ds k t fs, filled t fs ->
  (forall j, k <= j < k + length ds -> forall d, exists f, do_weighted_score (weight e l j) d sc = Ok f) ->
  exists t' gs, columns e sc l k ds t = Ok t' /\ filled t' (fs ++ gs)
    /\ Forall2 (fun p f => do_weighted_score (snd p) (fst p) sc = Ok f) (combine ds (map (fun k => weight e l k) (seq k (length ds)))) gs.
Proof.
  induction ds as [|d ds IH]; intros k t fs H KN.
  - exists t, []. rewrite app_nil_r. split; [reflexivity|]. split; [exact H|constructor].
  - cbn [columns]. destruct (make_room t fs H) as (t1 & -> & H1 & LT). cbn [rbind].
    destruct (KN k ltac:(cbn [length]; lia) d) as (f & E). rewrite E. cbn [rbind].
    destruct (push_ok t1 fs f H1 LT) as (t2 & -> & H2). cbn [rbind].
    destruct (IH (k + 1) t2 _ H2) as (t3 & gs & -> & H3 & F3). { intros j J. apply KN. cbn [length]. lia. }
    exists t3, (f :: gs). split; [reflexivity|]. split; [rewrite <- app_assoc in H3; exact H3|].
    cbn [length seq map combine]. constructor; [exact E|]. rewrite Nat.add_1_r in F3. exact F3.
Qed.
Lemma files_ok e load sc names ls : Forall2 (fun f l => load f = Ok (Some l)) names ls ->
  (forall l j d, In l ls -> j < length (l_desc l) -> exists f, do_weighted_score (weight e l j) d sc = Ok f) ->
  forall t fs, filled t fs -> exists t' gs, files e load sc names t = Ok (Some t') /\ filled t' (fs ++ gs)
    /\ Forall2 (fun p f => do_weighted_score (snd p) (fst p) sc = Ok f)
         (flat_map (fun l => combine (l_desc l) (map (fun k => weight e l k) (seq 0 (length (l_desc l))))) ls) gs.
Proof.
  induction 1 as [|f l names ls E F IH]; intros KN t fs H.
  - exists t, []. rewrite app_nil_r. split; [reflexivity|]. split; [exact H|constructor].
  - cbn [files]. rewrite E. cbn [rbind].
    destruct (columns_ok e sc l (l_desc l) 0 t fs H) as (t1 & gs & -> & H1 & F1). { intros j J d. apply KN; [left; reflexivity|exact (proj2 J)]. }
    cbn [rbind]. destruct (IH (fun l' j d I => KN l' j d (or_intror I)) t1 _ H1) as (t2 & gs2 & -> & H2 & F2).
    exists t2, (gs ++ gs2). split; [reflexivity|]. split; [rewrite app_assoc; exact H2|]. cbn [flat_map]. apply Forall2_app; assumption.
Qed.
Lemma filled_used t fs : filled t fs -> used t = Ok fs.
Proof.
  intros (N1 & F & _). unfold used. rewrite N1, F. clear. induction fs as [|f fs IH]; [reflexivity|]. cbn [map Alex_Model.each rbind]. rewrite IH. reflexivity.
Qed.
Lemma percent_ok x r : is_percent (zq x r) x r.
Proof.
  unfold is_percent, zq, Summ_Model.pct. destruct (Qeq_bool (inject_Z r) 0) eqn:E.
  - apply Qeq_bool_iff in E. split; [reflexivity|]. intros N1. exfalso. apply N1. unfold Qeq, inject_Z in E. cbn [Qnum Qden] in E. lia.
  - split; [intros ->; discriminate|]. intros NZ. field. intros E'. apply Qeq_bool_neq in E. contradiction.
Qed.
Lemma each_ok {A B} (f : A -> res B) g l : (forall x, In x l -> f x = Ok (g x)) -> Alex_Model.each f l = Ok (map g l).
Proof.
  induction l as [|x l IH]; intros H; [reflexivity|]. cbn [Alex_Model.each map]. rewrite (H x (or_introl eq_refl)). cbn [rbind]. rewrite IH by (intros y I; apply H; right; exact I). reflexivity.
Qed.
