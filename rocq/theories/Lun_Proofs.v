(** Proofs about the labelled utterance report of several systems. *)
From Coq Require Import String List ZArith NArith Arith Bool QArith Lia.
From Verif Require Import Base Store_Model Sgml_Model Rpg_Model Rpg_Spec Sig_Proofs2 Uni_Spec Uni_Proofs1 Uni_Proofs2 Order_Model Order_Spec Summ_Model Summ_Spec Summ_Proofs1 Lur_Model Lur_Thm Lut_Model Lut_Spec Lut_Proofs Lut_Proofs2 Lun_Model Lun_Spec.
Import ListNotations.
Local Open Scope res_scope.
Local Open Scope nat_scope.
Ltac zl := unfold str, Rpg_Model.str, Store_Model.str in *; lia.

(** ** Statistics *)
Lemma heard_present : forall col, filter presentN col = heard col.
Proof. intros col. unfold heard. apply filter_ext. intros [[|r] [|e]]; reflexivity. Qed.
Lemma label_ok : forall qs root room col t, qsort_contract qs -> Lun_Model.label_totals qs root room col = Ok t ->
  exists st, stats_of col st /\ forall k vs, total_values k t = Ok vs -> vs = total shown (stat_of root k (col, st)).
Proof.
  intros qs root room col t Q H. unfold Lun_Model.label_totals in H. destruct (C81_sums col) as (S1 & S2). destruct (columnN col) as [pres [sr se]] eqn:E. cbn [snd] in S2. rewrite S1 in S2. injection S2 as -> ->.
  assert (P : pres = heard col) by (unfold columnN in E; injection E as <- _; apply heard_present). subst pres. destruct (room <? length (heard col)); [discriminate H|].
  destruct (calc_double_ok qs (map (fun c => nq (fst c)) (heard col)) Q) as (a & A1 & A2).
  destruct (calc_double_ok qs (map (fun c => pct_of (snd c) (fst c)) (heard col)) Q) as (b & B1 & B2).
  rewrite A1, B1 in H. cbn [rbind] in H. apply ok_inj in H. subst t. exists (a, b). split; [split; [exact A2|exact B2]|].
  intros k vs V. unfold total_values in V. next V. next V. apply ok_inj in V. subst vs. apply whole_ok in E0. apply number_ok in E1. subst a0 a1. unfold total.
  destruct k as [|[|[|k]]]; reflexivity.
Qed.
Definition reads (root : Q -> Q) (ts : list totals) (cols : list (list (nat * nat))) (sts : list (stat * stat)) : Prop :=
  forall k vs, each (total_values k) ts = Ok vs -> concat vs = flat_map (fun cs => total shown (stat_of root k cs)) (combine cols sts).
Lemma labels_ok : forall qs root room cols ts, qsort_contract qs -> each (Lun_Model.label_totals qs root room) cols = Ok ts ->
  exists sts, Forall2 stats_of cols sts /\ reads root ts cols sts.
Proof.
  intros qs root room cols ts Q H. apply each_forall2 in H. induction H as [|col t cols ts H H1 (sts & S1 & S2)].
  - exists []. split; [constructor|]. intros k vs V. cbn [each] in V. apply ok_inj in V. subst vs. reflexivity.
  - destruct (label_ok _ _ _ _ _ Q H) as (st & T1 & T2). exists (st :: sts). split; [constructor; assumption|]. intros k vs V. cbn [each] in V. next V. next V. apply ok_inj in V. subst vs.
    cbn [concat combine flat_map]. rewrite (T2 _ _ E), (S2 _ _ E0). reflexivity.
Qed.
Lemma systems_ok : forall qs root room (ys : list (str * list (list (nat * nat)))) tss, qsort_contract qs -> each (fun y => each (Lun_Model.label_totals qs root room) (snd y)) ys = Ok tss ->
  exists stss, Forall2 (fun y sts => Forall2 stats_of (snd y) sts) ys stss
    /\ Forall2 (fun (yt : str * list totals) yst => fst yt = fst (fst yst) /\ reads root (snd yt) (snd (fst yst)) (snd yst)) (combine (map fst ys) tss) (combine ys stss).
Proof.
  intros qs root room ys tss Q H. apply each_forall2 in H. induction H as [|y ts ys tss H H1 (stss & S1 & S2)]; [exists []; split; constructor|].
  destruct (labels_ok _ _ _ _ _ Q H) as (sts & T1 & T2). exists (sts :: stss). split; [constructor; assumption|]. cbn [map combine]. constructor; [|exact S2]. split; [reflexivity|exact T2].
Qed.

(** ** Parts *)
Lemma numbers_calls : forall locs name vals o, length locs < 17 -> length vals = 2 * length locs -> flush (row_fmt locs) (name :: vals) = Ok o ->
  let r := mkrow (columns two_numbers locs) (name :: vals) in [o] = calls r /\ good_row r.
Proof.
  intros locs name vals o L V H.
  apply (numbers_ok {| i_title := []; i_labels := []; i_cats := []; i_names := []; i_locs := locs; i_cells := [] |} name vals o L V H).
Qed.
Lemma system_ok : forall root locs k yt yst o, length locs < 17 -> length (snd (fst yst)) = length locs -> length (snd yst) = length locs ->
  fst yt = fst (fst yst) -> reads root (snd yt) (snd (fst yst)) (snd yst) -> system_row locs k yt = Ok o ->
  [o] = calls (numbers shown locs (stat_of root k) yst) /\ good_row (numbers shown locs (stat_of root k) yst).
Proof.
  intros root locs k yt yst o L C S N R H. unfold system_row in H. next H. apply (R k) in E. rewrite E, N in H. unfold numbers. apply (numbers_calls locs _ _ _ L); [|exact H].
  rewrite two_len by (intros x; reflexivity). rewrite combine_length. zl.
Qed.
Lemma spell_head : forall n, 0 < n -> spell (head_cols n) = stat_fmt n.
Proof.
  intros [|n] H; [lia|]. unfold head_cols, stat_fmt. replace (2 * S n - 1) with (S (2 * n)) by lia.
  change (99%N :: 124%N :: 99%N :: 97%N :: spell (repeat (97, 32)%N (2 * n)) = 99%N :: 124%N :: 99%N :: 97%N :: concat (repeat (bytes "aa") n)). do 4 f_equal. rewrite spell_as.
  clear H. induction n as [|n IH]; [reflexivity|]. replace (2 * S n) with (S (S (2 * n))) by lia. cbn [repeat concat]. rewrite <- IH. reflexivity.
Qed.
Lemma head_good : forall n, good_cols (head_cols n).
Proof.
  intros n. unfold head_cols. split; [discriminate|]. split; [discriminate|]. split.
  - constructor; [cbn; auto 10|]. constructor; [cbn; auto 10|]. apply Forall_forall. intros c Hc. apply repeat_spec in Hc. subst. cbn. auto 10.
  - cbn [bars_between]. split; [discriminate|]. split; [discriminate|]. induction (2 * n - 1) as [|m IH]; [exact I|]. cbn [repeat bars_between]. split; [discriminate|exact IH].
Qed.
Lemma visible_head : forall n, length (visible (head_cols n)) = 2.
Proof. intros n. unfold head_cols. change (S (S (length (visible (repeat (97, 32)%N (2 * n - 1))))) = 2). do 2 f_equal. induction (2 * n - 1) as [|m IH]; [reflexivity|exact IH]. Qed.
Lemma head_length : forall n, length (spell (head_cols n)) = 3 + (2 * n - 1).
Proof. intros n. unfold head_cols. change (3 + length (spell (repeat (97, 32)%N (2 * n - 1))) = 3 + (2 * n - 1)). rewrite spell_as, repeat_length. reflexivity. Qed.
Lemma part_ok : forall root i yts stss k ops, 0 < length (n_locs i) < 17 -> n_systems i <> [] -> length stss = length (n_systems i) ->
  Forall (fun yst => length (snd (fst yst)) = length (n_locs i) /\ length (snd yst) = length (n_locs i)) (combine (n_systems i) stss) ->
  Forall2 (fun (yt : str * list totals) yst => fst yt = fst (fst yst) /\ reads root (snd yt) (snd (fst yst)) (snd yst)) yts (combine (n_systems i) stss) ->
  part (n_locs i) yts k = Ok ops ->
  let s := section shown i stss (if k =? 2 then 45%N else 61%N) (part_name k) (stat_of root k) in ops = flat_map calls s /\ Forall good_row s.
Proof.
  intros root i yts stss k ops L NS LS D R H s. unfold part in H. next H. apply ok_inj in H. apply each_forall2 in E.
  assert (X : flat_map calls (map (numbers shown (n_locs i) (stat_of root k)) (combine (n_systems i) stss)) = a /\ Forall good_row (map (numbers shown (n_locs i) (stat_of root k)) (combine (n_systems i) stss))).
  { clear H. revert a E. induction R as [|yt yst yts ysts (R1 & R2) R IH]; intros a E; inversion E; subst; [split; [reflexivity|constructor]|]. inversion D as [|? ? (D1 & D2) D']. subst.
    destruct (IH D' _ H3) as (I1 & I2). destruct (system_ok _ _ _ _ _ _ (proj2 L) D1 D2 R1 R2 H1) as (J1 & J2). cbn [map flat_map]. rewrite I1, <- J1. split; [reflexivity|constructor; assumption]. }
  destruct X as (X1 & X2). assert (NE : map (numbers shown (n_locs i) (stat_of root k)) (combine (n_systems i) stss) <> []).
  { destruct (n_systems i) as [|y ys]; [congruence|]. destruct stss; [discriminate LS|discriminate]. }
  subst ops. unfold s, section. split.
  - cbn [flat_map]. rewrite led_calls by exact NE. rewrite X1, under_calls, row_call, spell_head by lia.
    assert (T : takes (stat_fmt (length (n_locs i))) = 2) by (rewrite <- spell_head by lia; rewrite takes_visible by apply head_good; apply visible_head). rewrite T. reflexivity.
  - constructor; [|apply led_good; exact X2]. apply under_good. unfold mkrow. apply good_mk; [apply head_good|rewrite head_length; lia|rewrite visible_head; reflexivity| |intros K; destruct K; reflexivity].
    apply Forall_cons; [cbn; lia|]. apply Forall_cons; [|apply Forall_nil]. assert (P : length (part_name k) <= 100) by (destruct k as [|[|[|k]]]; cbn; lia). zl.
Qed.

Lemma four : forall {B} (f : nat -> res B) l, each f (seq 0 4) = Ok l -> exists a b c d, l = [a; b; c; d] /\ f 0 = Ok a /\ f 1 = Ok b /\ f 2 = Ok c /\ f 3 = Ok d.
Proof.
  intros B f l H. cbn [seq each] in H. destruct (f 0) as [a| | |]; try discriminate H. destruct (f 1) as [b| | |]; try discriminate H. destruct (f 2) as [c| | |]; try discriminate H.
  destruct (f 3) as [d| | |]; try discriminate H. cbn [rbind] in H. apply ok_inj in H. subst l. exists a, b, c, d. auto.
Qed.
Lemma rows_ok : forall qs root i ops, qsort_contract qs -> length (n_test i) < 1900 -> Forall (fun l => length (fst l) < 2000 /\ length (snd l) < 2000) (n_labels i) ->
  n_systems i <> [] -> n_locs i <> [] -> length (n_labels i) = length (n_locs i) -> Forall (fun y => length (snd y) = length (n_locs i)) (n_systems i) -> Lun_Model.report_ops qs root i = Ok ops ->
  exists ts stss, Forall2 (fun l t => unbroken (fst l) t) (n_labels i) ts /\ Forall2 (fun y sts => Forall2 stats_of (snd y) sts) (n_systems i) stss
    /\ ops = flat_map calls (lurN_rows shown root i ts stss) /\ Forall good_row (lurN_rows shown root i ts stss).
Proof.
  intros qs root i ops Q T LB NS NL L1 L2 H. unfold Lun_Model.report_ops in H.
  assert (LR : length (row_fmt (n_locs i)) = 1 + 3 * length (n_locs i)) by (rewrite <- spell_row; apply columns_length).
  destruct (Nat.leb_spec 50 (length (row_fmt (n_locs i)))) as [K|K]; [discriminate H|]. cbv zeta in H. assert (L : length (n_locs i) < 17) by lia.
  assert (L0 : 0 < length (n_locs i)) by (destruct (n_locs i); [congruence|cbn; lia]).
  next H. next H. next H. next H. next H. apply ok_inj in H. destruct (systems_ok _ _ _ _ _ Q E2) as (stss & S1 & S2).
  exists (map (fun l => rm_lf (length (fst l)) (fst l)) (n_labels i)), stss. split; [|split; [exact S1|]].
  { clear. induction (n_labels i) as [|l ls IH]; [constructor|]. constructor; [apply rm_lf_ok; lia|exact IH]. }
  assert (L3 : length (map fst (n_labels i)) = length (n_locs i)) by (rewrite map_length; exact L1).
  assert (L4 : length (map (fun _ : str * str => bytes " #Wrd %WE") (n_labels i)) = length (n_locs i)) by (rewrite map_length; exact L1).
  destruct (title_ok _ _ _ _ L L3 E0) as (C1 & C2). destruct (title_ok _ _ _ _ L L4 E1) as (D1 & D2).
  assert (LS : length stss = length (n_systems i)) by (symmetry; apply (f2_length _ _ _ S1)).
  assert (D : Forall (fun yst => length (snd (fst yst)) = length (n_locs i) /\ length (snd yst) = length (n_locs i)) (combine (n_systems i) stss)).
  { clear - S1 L2. revert L2. induction S1 as [|y sts ys stss H S1 IH]; intros L2; [constructor|]. inversion L2. subst. cbn [combine]. constructor; [|apply IH; assumption]. cbn [fst snd]. rewrite <- (f2_length _ _ _ H). split; assumption. }
  pose proof (fun k ops => part_ok root i _ stss k ops (conj L0 L) NS LS D S2) as P. apply four in E3. destruct E3 as (a4 & a5 & a6 & a7 & E3 & E4 & E5 & E6 & E7).
  apply P in E4, E5, E6, E7. cbn zeta in E4, E5, E6, E7. destruct E4 as (P1 & P2), E5 as (Q1 & Q2), E6 as (R1 & R2), E7 as (T1 & T2). clear P.
  destruct (legends_ok _ LB) as (J1 & J2). unfold lurN_rows.
  assert (X : exists cr, a = flat_map (fun r => calls r ++ [Separation 45%N true]) cr /\ Forall good_row cr
    /\ match n_cats i with [] => [] | cats => [under [45%N] (mkrow (columns field_title (n_locs i)) ([] :: map (fun g => nth g cats []) (seq 0 (runs (n_locs i)))))] end = map (under [45%N]) cr).
  { destruct (n_cats i) as [|c cs].
    - apply ok_inj in E. subst a. exists []. split; [reflexivity|]. split; [constructor|reflexivity].
    - next E. apply ok_inj in E. subst a. destruct (cats_ok _ _ _ L E4) as (X1 & X2). eexists [_]. cbn [flat_map map]. rewrite app_nil_r. change [a8; Separation 45%N true] with ([a8] ++ [Separation 45%N true]). rewrite X1. split; [reflexivity|]. split; [constructor; [exact X2|constructor]|reflexivity]. }
  destruct X as (cr & X1 & X2 & X3). rewrite X3. clear X3. split.
  - subst ops a3. rewrite !flat_map_app. rewrite led_calls by (intros Z; apply app_eq_nil in Z; destruct Z; discriminate). rewrite flat_map_app.
    match goal with |- context [flat_map calls (map ?f (combine ?x ?y))] => change (flat_map calls (map f (combine x y))) with (flat_map calls (legends (n_labels i))) end. rewrite J1.
    assert (Tit : forall x y, [x] = [a0] -> [y] = [a1] -> [Separation 45%N true; a0; a1] = Separation 45%N true :: [x] ++ [y] ++ []) by (intros x y U V; injection U as <-; injection V as <-; reflexivity).
    match goal with |- context [flat_map calls [under [45%N] ?x; ?y]] => replace (flat_map calls [under [45%N] x; y]) with [Separation 45%N true; a0; a1] by (apply Tit; symmetry; [exact C1|exact D1]) end. clear Tit.
    assert (Y : forall rest, [Separation 45%N true] ++ a ++ rest = flat_map calls (map (under [45%N]) cr) ++ Separation 45%N true :: rest).
    { intros rest. subst a. clear. induction cr as [|r cr IH]; [reflexivity|]. cbn [flat_map map]. rewrite under_calls. cbn [app]. f_equal. rewrite <- !app_assoc. f_equal. cbn [app] in *. rewrite IH. reflexivity. }
    transitivity ([Row (bytes "c") [bytes "By System Test Subset Scoring Summary"]; Row (bytes "c") [bytes "For the " ++ n_test i ++ bytes " Test"]] ++ [Separation 32%N true] ++ map legend (n_labels i)
      ++ [Separation 32%N false; Row (bytes "ccc") [[]; []; []]] ++ [Separation 45%N true] ++ a ++ ([a0; a1] ++ (a4 ++ a5 ++ a6 ++ a7))).
    + cbn [app concat]. rewrite <- ?app_assoc. cbn [app]. rewrite ?app_nil_r. reflexivity.
    + rewrite Y, P1, Q1, R1, T1. cbn [app]. rewrite <- ?app_assoc. cbn [app]. reflexivity.
  - apply Forall_app; split; [|apply Forall_app; split; [|apply Forall_app; split; [|apply Forall_app; split; [|apply Forall_app; split; [exact P2|apply Forall_app; split; [exact Q2|apply Forall_app; split; [exact R2|exact T2]]]]]]].
    + constructor; [apply plain_good; [cbn; auto|cbn; lia]|]. constructor; [|constructor]. apply plain_good; [cbn; auto|]. rewrite !app_length. change (length (bytes "For the ")) with 8. change (length (bytes " Test")) with 5. zl.
    + apply led_good, Forall_app. split; [exact J2|]. constructor; [|constructor]. apply legend_good; cbn; lia.
    + clear - X2. induction X2; constructor; [apply under_good; assumption|assumption].
    + constructor; [apply under_good, C2|]. constructor; [exact D2|constructor].
Qed.
