(** C49: groups of segments are aligned, or skipped for the first reason that holds. *)
From Coq Require Import List ZArith QArith Qround Bool Lia Lqa.
From Verif Require Import Base Skip_Model Skip_Spec.
Import ListNotations.
Local Open Scope res_scope.
Local Open Scope Z_scope.

(** * Cells *)
Lemma sum_nonneg l : (forall s, In s l -> 0 <= ntok s) -> 0 <= sum (map ntok l).
Proof.
  induction l as [|s l IH]; intros H; [cbn; lia|]. cbn [map sum fold_right]. fold (sum (map ntok l)).
  pose proof (H s (or_introl eq_refl)). assert (0 <= sum (map ntok l)) by (apply IH; intros x X; apply H; now right). lia.
Qed.
Lemma tokens_sum l : forall n, 0 <= n -> (forall s, In s l -> 0 <= ntok s) -> n + sum (map ntok l) < 2 ^ 64 ->
  fold_left (fun n s => wrap64 (n + ntok s)) l n = n + sum (map ntok l).
Proof.
  induction l as [|s l IH]; intros n N H B; [cbn in *; lia|]. cbn [map sum fold_right fold_left] in *. fold (sum (map ntok l)) in *.
  pose proof (H s (or_introl eq_refl)).
  assert (0 <= sum (map ntok l)) by (apply sum_nonneg; intros x X; apply H; now right).
  unfold wrap64 at 2. rewrite Z.mod_small by lia. rewrite IH; [lia|lia|intros x X; apply H; now right|lia].
Qed.
Definition factor (l : list gseg) : Z := sum (map ntok l) + 1.
Lemma product_pos ls : (forall l s, In l ls -> In s l -> 0 <= ntok s) -> 1 <= product (map factor ls).
Proof.
  induction ls as [|l ls IH]; intros H; [cbn; lia|]. cbn [map product fold_right]. fold (product (map factor ls)).
  assert (0 <= sum (map ntok l)) by (apply sum_nonneg; intros s S; apply (H l s); [now left|exact S]).
  assert (1 <= product (map factor ls)) by (apply IH; intros l' s L S; apply (H l' s); [now right|exact S]).
  unfold factor at 1. nia.
Qed.
Lemma mul_product ls : forall r, 1 <= r -> (forall l s, In l ls -> In s l -> 0 <= ntok s) -> r * product (map factor ls) < 2 ^ 64 ->
  fold_left (fun r l => wrap64 (r * (speech_tokens l + 1))) ls r = r * product (map factor ls).
Proof.
  induction ls as [|l ls IH]; intros r R H B; [cbn [map product fold_right fold_left] in *; lia|].
  cbn [map product fold_right fold_left] in *. fold (product (map factor ls)) in *.
  assert (0 <= sum (map ntok l)) by (apply sum_nonneg; intros s S; apply (H l s); [now left|exact S]).
  assert (1 <= product (map factor ls)) by (apply product_pos; intros l' s L S; apply (H l' s); [now right|exact S]).
  assert (r * factor l * product (map factor ls) < 2 ^ 64) as B' by nia.
  assert (0 < factor l) as FP by (unfold factor; lia).
  assert (r * factor l < 2 ^ 64) by nia. assert (factor l < 2 ^ 64) by nia.
  unfold speech_tokens at 2. rewrite tokens_sum; [|lia|intros s S; apply (H l s); [now left|exact S]|unfold factor in *; lia].
  rewrite Z.add_0_l. fold (factor l). unfold wrap64 at 2. rewrite Z.mod_small by nia.
  rewrite IH; [lia|nia| |exact B']. intros l' s L S; apply (H l' s); [now right|exact S].
Qed.
Lemma product_app a b : product (a ++ b) = product a * product b.
Proof. induction a as [|x a IH]; cbn [app product fold_right]; [fold (product b); lia|]. fold (product (a ++ b)) (product a). rewrite IH. lia. Qed.
Lemma difficulty_cells g : small g -> difficulty_number g = cells g.
Proof.
  intros [H B]. unfold cells in *. fold factor in *. change (fun l : list gseg => sum (map ntok l) + 1) with factor in *.
  rewrite map_app, product_app in *.
  assert (1 <= product (map factor (refs g))) as P1 by (apply product_pos; intros l s L S; apply (H l s); [apply in_or_app; now left|exact S]).
  assert (1 <= product (map factor (hyps g))) as P2 by (apply product_pos; intros l s L S; apply (H l s); [apply in_or_app; now right|exact S]).
  unfold difficulty_number. rewrite mul_product.
  - rewrite mul_product; [lia|lia|intros l s L S; apply (H l s); [apply in_or_app; now left|exact S]|nia].
  - rewrite mul_product; [lia|lia|intros l s L S; apply (H l s); [apply in_or_app; now left|exact S]|nia].
  - intros l s L S; apply (H l s); [apply in_or_app; now right|exact S].
  - rewrite mul_product; [lia|lia|intros l s L S; apply (H l s); [apply in_or_app; now left|exact S]|nia].
Qed.

(** * Limits *)
Lemma ceil_le x k : Qceiling x <= k <-> (x <= inject_Z k)%Q.
Proof.
  split; intros H.
  - apply Qle_trans with (inject_Z (Qceiling x)); [apply Qle_ceiling|]. now apply inject_Z_le in H || (rewrite <- Zle_Qle; exact H).
  - apply Qceiling_resp_le in H. now rewrite Qceiling_Z in H.
Qed.
Lemma quarter gb k : (inject_Z 1073741824 * gb / inject_Z 4 <= inject_Z k)%Q <-> (inject_Z (1024 * 1024 * 1024) * gb <= inject_Z (4 * k))%Q.
Proof.
  change (1024 * 1024 * 1024) with 1073741824. rewrite inject_Z_mult. change (inject_Z 4) with (4 # 1). split; intros H.
  - assert (inject_Z 1073741824 * gb == inject_Z 1073741824 * gb / (4 # 1) * (4 # 1))%Q as E by field. lra.
  - assert (inject_Z 1073741824 * gb == inject_Z 1073741824 * gb / (4 # 1) * (4 # 1))%Q as E by field. lra.
Qed.
Lemma limit gb : sane_gb gb -> exists n, cells_of_gb gb = Ok n /\ forall k, n <= k <-> (inject_Z (1024 * 1024 * 1024) * gb <= inject_Z (4 * k))%Q.
Proof.
  intros [P L]. unfold cells_of_gb. set (x := (inject_Z 1073741824 * gb / inject_Z 4)%Q).
  assert (0 <= Qceiling x) as C0.
  { assert (inject_Z 0 <= x)%Q as X.
    { assert (x == (268435456 # 1) * gb)%Q as E by (subst x; change (inject_Z 1073741824) with (1073741824 # 1)%Q; change (inject_Z 4) with (4 # 1)%Q; field).
      change (inject_Z 0) with 0%Q. rewrite E. lra. }
    apply Qceiling_resp_le in X. now rewrite Qceiling_Z in X. }
  assert (Qceiling x <= 2 ^ 60) as C1.
  { apply ceil_le. unfold x. apply quarter. change (inject_Z (4 * 2 ^ 60)) with (4611686018427387904 # 1).
    change (inject_Z (1024 * 1024 * 1024)) with (1073741824 # 1) in *. lra. }
  rewrite (proj2 (Z.ltb_ge _ _)) by lia. rewrite (proj2 (Z.leb_gt _ _)) by lia. cbn [orb].
  exists (Qceiling x). split; [reflexivity|]. intros k. rewrite ceil_le. subst x. apply quarter.
Qed.
Lemma limit_above gb g : small g -> sane_gb gb -> exists n, cells_of_gb gb = Ok n /\
  ((n <? difficulty_number g) = true <-> above g gb) /\ ((difficulty_number g <? n) = true <-> below g gb).
Proof.
  intros S P. destruct (limit gb P) as [n [E H]]. exists n. split; [exact E|]. rewrite (difficulty_cells g S), !Z.ltb_lt. split.
  - unfold above. rewrite <- H. lia.
  - unfold below. pose proof (H (cells g)) as HC. split; intros X.
    + apply Qnot_le_lt. intros Y. apply HC in Y. lia.
    + apply Z.nle_gt. intros Y. apply HC in Y. apply Qle_not_lt in Y. contradiction.
Qed.

(** * The decision *)
Lemma ignored_iff c g : is_ignore_in_scoring g = true <-> holds c g Ignored.
Proof.
  unfold is_ignore_in_scoring. cbn [holds]. rewrite existsb_exists. split.
  - intros [l [L H]]. apply existsb_exists in H. destruct H as [s [S X]]. now exists l, s.
  - intros [l [s [L [S X]]]]. exists l. split; [exact L|]. apply existsb_exists. now exists s.
Qed.
Lemma bool_cases (b : bool) (P : Prop) : (b = true <-> P) -> (b = true /\ P) \/ (b = false /\ ~ P).
Proof. intros H. destruct b; [left; split; [reflexivity|now apply H]|right; split; [reflexivity|]]. intros X. apply H in X. discriminate. Qed.
Lemma uint_small z : 0 <= z < 2 ^ 31 -> to_uint z = z.
Proof. intros H. unfold to_uint. apply Z.mod_small. lia. Qed.

Ltac first_by a b :=
  exists a, b; split; [reflexivity|]; split; [assumption|];
  intros x X; cbn [In] in X; repeat (destruct X as [<-|X]; [assumption|]); destruct X.

(** Every group is either skipped, for the first reason that holds, or no reason holds and it is
    aligned, with compression when it is forced or the memory limits are exceeded. *)
Theorem C49_decision c g :
  sane c -> small g ->
  exists o, decide c g = Ok o /\
    match o with
    | Skipped r => first_reason c g r
    | Aligned b => (forall r, ~ holds c g r) /\
                   (b = true <-> force_compression c = true \/ above g (max_gb c) \/ above g 2)
    end.
Proof.
  intros (MX & MN & MG & DG & DM) S. unfold decide.
  destruct (limit_above (max_gb c) g S MG) as [n1 [-> [A1 _]]]. cbn [rbind].
  assert (sane_gb 2) as G2 by (split; [discriminate|reflexivity]).
  destruct (limit_above 2 g S G2) as [n2 [-> [A2 _]]]. cbn [rbind].
  destruct (bool_cases _ _ (ignored_iff c g)) as [[-> H0]|[-> H0]].
  { eexists. split; [reflexivity|]. cbn beta iota. first_by (@nil reason) [OtherGroup; ManySpeakers; FewSpeakers; TooDifficult; TooEasy; TooLarge]. }
  assert (match only_group c with Some id => negb (gid g =? id) | None => false end = true <-> holds c g OtherGroup) as T1.
  { cbn [holds]. destruct (only_group c) as [id|].
    - rewrite negb_true_iff, Z.eqb_neq. split; [intros X; now exists id|]. intros [id' [X Y]]. injection X as <-. exact Y.
    - split; [discriminate|]. intros [id [X _]]. discriminate. }
  destruct (bool_cases _ _ T1) as [[-> H1]|[-> H1]].
  { eexists. split; [reflexivity|]. cbn beta iota. first_by [Ignored] [ManySpeakers; FewSpeakers; TooDifficult; TooEasy; TooLarge]. }
  rewrite (uint_small _ MX), (uint_small _ MN).
  assert ((max_speakers c <? Z.of_nat (length (refs g))) = true <-> holds c g ManySpeakers) as T2 by (cbn [holds]; apply Z.ltb_lt).
  destruct (bool_cases _ _ T2) as [[-> H2]|[-> H2]].
  { eexists. split; [reflexivity|]. cbn beta iota. first_by [Ignored; OtherGroup] [FewSpeakers; TooDifficult; TooEasy; TooLarge]. }
  assert ((Z.of_nat (length (refs g)) <? min_speakers c) = true <-> holds c g FewSpeakers) as T3 by (cbn [holds]; apply Z.ltb_lt).
  destruct (bool_cases _ _ T3) as [[-> H3]|[-> H3]].
  { eexists. split; [reflexivity|]. cbn beta iota. first_by [Ignored; OtherGroup; ManySpeakers] [TooDifficult; TooEasy; TooLarge]. }
  assert (exists b, match difficulty_gb c with Some gb => let* n := cells_of_gb gb in Ok (n <? difficulty_number g) | None => Ok false end = Ok b
          /\ (b = true <-> holds c g TooDifficult)) as [b4 [-> T4]].
  { cbn [holds]. destruct (difficulty_gb c) as [gb|].
    - destruct (limit_above gb g S (DG gb eq_refl)) as [n [-> [A _]]]. cbn [rbind]. eexists. split; [reflexivity|]. rewrite A.
      split; [intros X; now exists gb|]. intros [gb' [X Y]]. injection X as <-. exact Y.
    - eexists. split; [reflexivity|]. split; [discriminate|]. intros [gb [X _]]. discriminate. }
  cbn [rbind]. destruct (bool_cases _ _ T4) as [[-> H4]|[-> H4]].
  { eexists. split; [reflexivity|]. cbn beta iota. first_by [Ignored; OtherGroup; ManySpeakers; FewSpeakers] [TooEasy; TooLarge]. }
  assert (exists b, match min_difficulty_gb c with Some gb => let* n := cells_of_gb gb in Ok (difficulty_number g <? n) | None => Ok false end = Ok b
          /\ (b = true <-> holds c g TooEasy)) as [b5 [-> T5]].
  { cbn [holds]. destruct (min_difficulty_gb c) as [gb|].
    - destruct (limit_above gb g S (DM gb eq_refl)) as [n [-> [_ B]]]. cbn [rbind]. eexists. split; [reflexivity|]. rewrite B.
      split; [intros X; now exists gb|]. intros [gb' [X Y]]. injection X as <-. exact Y.
    - eexists. split; [reflexivity|]. split; [discriminate|]. intros [gb [X _]]. discriminate. }
  cbn [rbind]. destruct (bool_cases _ _ T5) as [[-> H5]|[-> H5]].
  { eexists. split; [reflexivity|]. cbn beta iota. first_by [Ignored; OtherGroup; ManySpeakers; FewSpeakers; TooDifficult] [TooLarge]. }
  assert (((n1 <? difficulty_number g) || (n2 <? difficulty_number g)) = true <-> above g (max_gb c) \/ above g 2) as T6
    by (rewrite orb_true_iff, A1, A2; reflexivity).
  destruct (bool_cases _ _ T6) as [[-> H6]|[-> H6]].
  - destruct (compression c || force_compression c) eqn:CO; cbn [negb].
    + exists (Aligned true). split; [reflexivity|]. split; [|tauto]. intros r. destruct r; try assumption. cbn [holds].
      intros [_ [X Y]]. rewrite X, Y in CO. discriminate.
    + apply orb_false_iff in CO. eexists. split; [reflexivity|]. cbn beta iota.
      exists [Ignored; OtherGroup; ManySpeakers; FewSpeakers; TooDifficult; TooEasy], []. split; [reflexivity|].
      split; [cbn [holds]; tauto|]. intros x X; cbn [In] in X; repeat (destruct X as [<-|X]; [assumption|]); destruct X.
  - eexists. split; [reflexivity|]. cbn beta iota. split; [|tauto]. intros r. destruct r; try assumption. cbn [holds]. tauto.
Qed.
Print Assumptions C49_decision.

Lemma with_hypothesis_ok g : completed g (with_hypothesis g).
Proof.
  unfold completed, with_hypothesis. destruct (hyps g) eqn:E; cbn.
  - split; [reflexivity|]. split; [reflexivity|]. right. split; [reflexivity|]. now exists empty_segment.
  - split; [reflexivity|]. split; [reflexivity|]. left. rewrite E. split; [discriminate|reflexivity].
Qed.
Lemma with_hypothesis_small g : small g -> small (with_hypothesis g).
Proof.
  intros HB. unfold with_hypothesis. destruct (hyps g) eqn:E; [|exact HB]. destruct HB as [H B]. split; cbn [refs hyps].
  - intros l s L S. apply in_app_or in L. destruct L as [L|[<-|[]]].
    + apply (H l s); [apply in_or_app; now left|exact S].
    + destruct S as [<-|[]]. cbn. lia.
  - unfold cells in *. cbn [refs hyps]. rewrite E, app_nil_r in B. rewrite map_app, product_app. cbn. lia.
Qed.

(** All the groups of a system are sorted out; the program stops only at a group without
    duration. *)
Theorem C49_groups c gs :
  sane c -> Forall small gs ->
  exists al sk, sorted_out c gs al sk /\
    align_groups c gs = (if forallb (fun x => min_time (fst x) <? max_time (fst x)) al then Ok (al, sk) else Exit).
Proof.
  intros SC. induction 1 as [|g gs S F IH]; [exists [], []; split; [constructor|reflexivity]|].
  destruct IH as [al [sk [SO E]]]. cbn [align_groups]. cbv zeta. rewrite E.
  destruct (C49_decision c (with_hypothesis g) SC (with_hypothesis_small g S)) as [o [-> O]]. cbn [rbind].
  destruct o as [b|r].
  - destruct O as [O1 O2]. exists ((with_hypothesis g, b) :: al), sk. split; [apply S_aligned with (g' := with_hypothesis g); auto using with_hypothesis_ok|].
    cbn [forallb fst]. unfold total_duration. cbv zeta. destruct (min_time (with_hypothesis g) <? max_time (with_hypothesis g)) eqn:D.
    + apply Z.ltb_lt in D. rewrite (proj2 (Z.leb_gt _ _)) by lia. cbn [rbind andb]. destruct (forallb _ al); reflexivity.
    + apply Z.ltb_ge in D. rewrite (proj2 (Z.leb_le _ _)) by lia. reflexivity.
  - exists al, ((with_hypothesis g, r) :: sk). split; [apply S_skipped with (g' := with_hypothesis g); auto using with_hypothesis_ok|].
    destruct (forallb _ al); reflexivity.
Qed.
Print Assumptions C49_groups.

(** The duration of a group is the time from the first beginning to the last end. *)
Lemma fold_min l : forall m0, let m := fold_left (fun m s => if sbegin s <? m then sbegin s else m) l m0 in
  m <= m0 /\ (forall s, In s l -> m <= sbegin s) /\ (m = m0 \/ exists s, In s l /\ sbegin s = m).
Proof.
  induction l as [|s l IH]; intros m0; cbv zeta; cbn [fold_left]; [split; [lia|]; split; [intros s []|now left]|].
  destruct (IH (if sbegin s <? m0 then sbegin s else m0)) as [A [B C]].
  destruct (sbegin s <? m0) eqn:D; [apply Z.ltb_lt in D|apply Z.ltb_ge in D].
  - split; [lia|]. split; [intros x [<-|X]; [lia|now apply B]|]. right. destruct C as [C|[x [X C]]].
    + exists s. split; [now left|now symmetry].
    + exists x. split; [now right|exact C].
  - split; [lia|]. split; [intros x [<-|X]; [lia|now apply B]|]. destruct C as [C|[x [X C]]]; [now left|right].
    exists x. split; [now right|exact C].
Qed.
Lemma fold_max l : forall m0, let m := fold_left (fun m s => if m <? send s then send s else m) l m0 in
  m0 <= m /\ (forall s, In s l -> send s <= m) /\ (m = m0 \/ exists s, In s l /\ send s = m).
Proof.
  induction l as [|s l IH]; intros m0; cbv zeta; cbn [fold_left]; [split; [lia|]; split; [intros s []|now left]|].
  destruct (IH (if m0 <? send s then send s else m0)) as [A [B C]].
  destruct (m0 <? send s) eqn:D; [apply Z.ltb_lt in D|apply Z.ltb_ge in D].
  - split; [lia|]. split; [intros x [<-|X]; [lia|now apply B]|]. right. destruct C as [C|[x [X C]]].
    + exists s. split; [now left|now symmetry].
    + exists x. split; [now right|exact C].
  - split; [lia|]. split; [intros x [<-|X]; [lia|now apply B]|]. destruct C as [C|[x [X C]]]; [now left|right].
    exists x. split; [now right|exact C].
Qed.
Theorem C49_duration g b e :
  spans g b e -> b <= 2 ^ 31 - 1 -> 0 <= e -> total_duration g = if e <=? b then Exit else Ok (e - b).
Proof.
  intros [[s1 [I1 E1]] [L1 [[s2 [I2 E2]] L2]]] B E. unfold segments in *.
  destruct (fold_min (concat (refs g) ++ concat (hyps g)) int_max) as [A1 [A2 A3]].
  destruct (fold_max (concat (refs g) ++ concat (hyps g)) 0) as [B1 [B2 B3]].
  fold (min_time g) in *. fold (max_time g) in *.
  assert (min_time g = b) as MN.
  { pose proof (A2 _ I1). destruct A3 as [A3|[x [X A3]]]; [unfold int_max in A3; lia|]. pose proof (L1 _ X). lia. }
  assert (max_time g = e) as MX.
  { pose proof (B2 _ I2). destruct B3 as [B3|[x [X B3]]]; [lia|]. pose proof (L2 _ X). lia. }
  unfold total_duration. cbv zeta. rewrite MN, MX. destruct (e <=? b) eqn:D.
  - apply Z.leb_le in D. now rewrite (proj2 (Z.leb_le _ _)) by lia.
  - apply Z.leb_gt in D. now rewrite (proj2 (Z.leb_gt _ _)) by lia.
Qed.
Print Assumptions C49_duration.

(** A group without hypothesis is given one at time 0: its duration is counted from the beginning
    of the recording. *)
Theorem C49_empty_hypothesis_refuted :
  ~ (forall g b e, spans g b e -> 0 <= b < e -> e < 2 ^ 31 -> total_duration (with_hypothesis g) = Ok (e - b)).
Proof.
  intros H. specialize (H {| gid := 0; refs := [[{| excluded := false; ntok := 3; sbegin := 5000; send := 6000 |}]]; hyps := [] |} 5000 6000).
  assert (total_duration (with_hypothesis {| gid := 0; refs := [[{| excluded := false; ntok := 3; sbegin := 5000; send := 6000 |}]]; hyps := [] |}) = Ok 6000) as X by reflexivity.
  rewrite H in X; [discriminate| |lia|lia].
  unfold spans, segments. cbn. repeat split.
  - eexists. split; [left; reflexivity|reflexivity].
  - intros s [<-|[]]. cbn. lia.
  - eexists. split; [left; reflexivity|reflexivity].
  - intros s [<-|[]]. cbn. lia.
Qed.
Print Assumptions C49_empty_hypothesis_refuted.

(** The number of cells is computed with 64 bits: eight speakers of 255 words each give 0, and the
    group is aligned without compression although its matrix needs 64 exabytes. *)
Theorem C49_overflow_refuted :
  ~ (forall c g b, sane c -> (forall l s, In l (refs g ++ hyps g) -> In s l -> 0 <= ntok s) ->
       decide c g = Ok (Aligned b) -> forall r, ~ holds c g r).
Proof.
  set (sp := [{| excluded := false; ntok := 255; sbegin := 0; send := 1000 |}]).
  set (g := {| gid := 0; refs := repeat sp 7; hyps := [sp] |}).
  set (c := {| max_speakers := 7; min_speakers := 1; only_group := None; max_gb := 2; difficulty_gb := None; min_difficulty_gb := None;
               compression := false; force_compression := false |}).
  intros H. apply (H c g false) with (r := TooLarge).
  - repeat split; cbn; try lia; try discriminate; reflexivity.
  - intros l s L S. assert (In l (repeat sp 8)) as L'.
    { subst g. cbn in *. tauto. }
    apply repeat_spec in L'. subst l. destruct S as [<-|[]]. cbn. lia.
  - vm_compute. reflexivity.
  - cbn [holds]. split; [|split; reflexivity]. right. unfold above. vm_compute. discriminate.
Qed.
Print Assumptions C49_overflow_refuted.

Definition g1 : group :=
  {| gid := 4; refs := [[{| excluded := false; ntok := 3; sbegin := 100; send := 900 |}]; [{| excluded := false; ntok := 2; sbegin := 200; send := 700 |}]];
     hyps := [[{| excluded := false; ntok := 4; sbegin := 100; send := 950 |}]] |}.
Definition c1 : config :=
  {| max_speakers := 3; min_speakers := 1; only_group := Some 4; max_gb := 2; difficulty_gb := Some (1 # 2); min_difficulty_gb := None;
     compression := true; force_compression := false |}.
Example decision_case : sane c1 /\ small g1 /\ decide c1 g1 = Ok (Aligned false).
Proof.
  split; [|split].
  - repeat split; cbn; try lia; try discriminate; try reflexivity; injection H as <-; try discriminate; reflexivity.
  - split; [|vm_compute; reflexivity]. intros l s L S. cbn in L. intuition (subst; cbn in *; intuition (subst; cbn; lia)).
  - vm_compute. reflexivity.
Qed.
Example span_case : spans g1 100 950 /\ total_duration g1 = Ok 850.
Proof.
  split; [|reflexivity]. unfold spans, segments. cbn. repeat split.
  - eexists. split; [left; reflexivity|reflexivity].
  - intros s [<-|[<-|[<-|[]]]]; cbn; lia.
  - eexists. split; [right; right; left; reflexivity|reflexivity].
  - intros s [<-|[<-|[<-|[]]]]; cbn; lia.
Qed.
