(** Proofs about the unified report: the calls make the rows. *)
From Coq Require Import String List ZArith NArith Arith Bool QArith Lia.
From Verif Require Import Base Store_Model Rpg_Model Rpg_Spec Sig_Model Sig_Spec Sig_Proofs1 Sig_Proofs2 Uni_Model Uni_Spec Uni_Proofs1.
Import ListNotations.
Local Open Scope res_scope.
Local Open Scope nat_scope.

Lemma iterated_inv : forall r fmt vals o, iterated r fmt vals = Ok o -> r <= 60 /\ o = Row fmt vals /\ Forall (fun v => length v < 2000) vals.
Proof.
  intros r fmt vals o H. unfold iterated in H. destruct (Nat.ltb_spec 60 r); [discriminate H|]. destruct (60 <? length vals); [discriminate H|].
  match goal with K : (if ?b then _ else _) = _ |- _ => destruct b eqn:E; [discriminate H|] end. apply ok_inj in H. split; [assumption|]. split; [symmetry; exact H|].
  apply Forall_forall. intros v Hv. destruct (Nat.leb_spec 2000 (length v)) as [K|K]; [|exact K]. exfalso.
  assert (X : existsb (fun v => 2000 <=? length v) vals = true) by (apply existsb_exists; exists v; split; [exact Hv|apply Nat.leb_le; exact K]). congruence.
Qed.
Lemma row_call : forall cols vals, calls (mkrow cols vals) = [Row (spell cols) vals].
Proof. reflexivity. Qed.
Lemma good_mk : forall cols vals b a, good_cols cols -> length (spell cols) < 100 -> length vals = length (visible cols) -> Forall (fun v => length v < 2000) vals ->
  (a <> [] -> Forall (fun c => snd c <> 61%N) cols) -> good_row {| s_cols := cols; s_vals := vals; s_before := b; s_after := a |}.
Proof. intros cols vals b a (A & B & D & E) L V F G. repeat split; auto. Qed.

(** ** Lines over all columns *)
Lemma header_length : forall n, length (header_fmt n) = 3 * n + 3.
Proof. intros. unfold header_fmt. rewrite !app_length, times_length. change (length (bytes "ca")) with 2. change (length (bytes "aaa")) with 3. change (length (bytes "a")) with 1. lia. Qed.
Lemma across_row : forall n v b a, n < 24 -> length v < 2000 ->
  good_row {| s_cols := s_cols (across n v); s_vals := [v]; s_before := b; s_after := a |}.
Proof.
  intros n v b a L V. apply good_mk; [apply across_good| | | |].
  - cbn [s_cols across mkrow]. rewrite spell_across, header_length. lia.
  - cbn [s_cols across mkrow]. rewrite visible_across. reflexivity.
  - constructor; [exact V|constructor].
  - intros _. cbn [s_cols across mkrow]. constructor; [discriminate|]. apply Forall_forall. intros c Hc. apply repeat_spec in Hc. subst. discriminate.
Qed.
Lemma across_calls : forall n v, calls (across n v) = [Row (header_fmt n) [v]].
Proof. intros. unfold across. rewrite row_call, spell_across. reflexivity. Qed.
Lemma acrosses : forall n rs, flat_map calls (map (across n) rs) = map (fun l => Row (header_fmt n) [l]) rs.
Proof. intros n. induction rs as [|r rs IH]; [reflexivity|]. cbn [map flat_map]. rewrite across_calls, IH. reflexivity. Qed.

(** ** The legend *)
Lemma centre_fits : forall s len r, centre s len = Ok r -> (slen s <= len)%Z -> slen r = len.
Proof. intros s len r H L. apply centre_inv in H. destruct H as (f & g & -> & K & _). specialize (K L). exact K. Qed.
Lemma legend_line_ok : forall d s x y l, legend_line d s x y = Ok l ->
  words l = words x ++ words y /\ length l < 100 /\ ((slen x <= d)%Z -> (slen y <= s)%Z -> Z.of_nat (length l) = (d + 5 + s)%Z).
Proof.
  intros d s x y l H. unfold legend_line in H. next H. next H. next H. cbv zeta in H.
  destruct (Nat.leb_spec 100 (length (a ++ a0 ++ a1))) as [K|K]; [discriminate H|]. apply ok_inj in H. subst l.
  vm_compute in E0. apply ok_inj in E0. subst a0. change [32%N; 32%N; 32%N; 32%N; 32%N] with (32%N :: blanks 4) in *. split; [|split; [exact K|]].
  - cbn [app]. rewrite words_app, words_blanks, (centre_words _ _ _ E), (centre_words _ _ _ E1). reflexivity.
  - intros X Y. apply centre_fits in E; [|exact X]. apply centre_fits in E1; [|exact Y]. unfold slen in *. rewrite !app_length. cbn [length blanks repeat]. lia.
Qed.
Lemma legend_dashes_ok : forall d s l, (0 <= d)%Z -> (0 <= s)%Z -> legend_dashes d s = Ok l ->
  l = repeat 45%N (Z.to_nat d) ++ repeat 32%N 5 ++ repeat 45%N (Z.to_nat s) /\ length l < 100 /\ Z.of_nat (length l) = (d + 5 + s)%Z.
Proof.
  intros d s l D0 S0 H. unfold legend_dashes in H. next H. cbv zeta in H. destruct (Nat.leb_spec 100 (length (dashes d ++ a ++ dashes s))) as [K|K]; [discriminate H|].
  apply ok_inj in H. subst l. vm_compute in E. apply ok_inj in E. subst a. split; [reflexivity|]. split; [exact K|]. unfold dashes. rewrite !app_length, !repeat_length. cbn [length]. lia.
Qed.
Lemma indexed_from : forall {A} (l : list A), indexed l = number_from 0 l.
Proof. reflexivity. Qed.
Lemma legend_from : forall n d s tests i m rows, i + length tests = m ->
  Forall2 (fun kt y => rbind (legend_line d s (t_desc (snd kt)) (t_id (snd kt)))
      (fun l => Ok ((if fst kt =? m - 1 then [Separation 32%N false; Separation 32%N false] else []) ++ [Row (header_fmt n) [l]])) = Ok y) (number_from i tests) rows ->
  exists ls, concat rows = flat_map calls (legend_rows n ls) /\ Forall2 (fun t l => legend_line d s (t_desc t) (t_id t) = Ok l) tests ls.
Proof.
  intros n d s tests. induction tests as [|t tests IH]; intros i m rows Hm H.
  - inversion H; subst. exists []. split; [reflexivity|constructor].
  - unfold number_from in H. cbn [length seq combine] in H. inversion H as [|? y ? ys H1 H2]; subst. cbn [fst snd length] in H1. next H1. apply ok_inj in H1.
    destruct (IH (S i) (i + length (t :: tests)) ys ltac:(cbn [length]; lia) H2) as (ls & L1 & L2).
    exists (a :: ls). split; [|constructor; assumption]. cbn [concat]. rewrite L1, <- H1. destruct ls as [|l ls].
    + inversion L2; subst. cbn [length]. replace (i =? i + 1 - 1) with true by (symmetry; apply Nat.eqb_eq; lia).
      cbn [legend_rows flat_map app]. unfold calls, over, across, mkrow. cbn [s_before s_after s_cols s_vals map app]. rewrite spell_across. reflexivity.
    + inversion L2; subst. cbn [length]. replace (i =? i + S (S (length l0)) - 1) with false by (symmetry; apply Nat.eqb_neq; lia).
      cbn [app]. change (legend_rows n (a :: l :: ls)) with (across n a :: legend_rows n (l :: ls)). cbn [flat_map]. rewrite across_calls. reflexivity.
Qed.
Lemma legend_good : forall n ls, n < 24 -> Forall (fun l : str => length l < 100) ls -> Forall good_row (legend_rows n ls).
Proof.
  intros n ls L F. induction F as [|l ls Hl F IH]; [constructor|]. destruct ls as [|l' ls].
  - constructor; [apply (across_row n l [] [32; 32]%N); lia|constructor].
  - constructor; [apply (across_row n l [] []); lia|exact IH].
Qed.

(** ** The rows of the systems *)
Lemma winner_who : forall names w s t, winner w (nth s names []) (nth t names []) = who names w s t.
Proof. intros names [|p|p] s t; reflexivity. Qed.
Lemma values_ok : forall names s ik, values names (s, nth s names []) ik = s_vals (test_row printed names s (fst ik) (snd ik)).
Proof.
  intros names s [i k]. unfold values, test_row, under, mkrow. cbn [fst snd s_vals]. do 2 f_equal. f_equal.
  rewrite numbered_map, flat_map_concat_map, map_map, flat_map_concat_map. f_equal. apply map_ext. intros t.
  unfold Uni_Model.cells, about. rewrite winner_who. rewrite Nat.ltb_antisym. destruct (t <=? s); reflexivity.
Qed.
Lemma test_calls : forall names s i k, calls (test_row printed names s i k)
  = (if i =? 0 then [Separation 45%N true] else []) ++ [Row (row_fmt (length names)) (values names (s, nth s names []) (i, k))].
Proof.
  intros. rewrite values_ok. unfold calls. cbn [fst snd]. change (s_cols (test_row printed names s i k)) with (grid_cols 114 114 108 (length names)). rewrite spell_rows.
  change (s_before (test_row printed names s i k)) with ((if i =? 0 then [45%N] else []) ++ []). change (s_after (test_row printed names s i k)) with (@nil N).
  destruct (i =? 0); reflexivity.
Qed.
Lemma later_tests : forall r names s tests i ops, 0 < i ->
  Forall2 (fun kt y => iterated r (row_fmt (length names)) (values names (s, nth s names []) kt) = Ok y) (number_from i tests) ops ->
  ops = flat_map calls (map (fun ik => test_row printed names s (fst ik) (snd ik)) (number_from i tests)).
Proof.
  intros r names s tests. induction tests as [|t tests IH]; intros i ops Hi H; unfold number_from in *; cbn [length seq combine] in *.
  - inversion H; subst. reflexivity.
  - inversion H as [|? y ? ys H1 H2]; subst. cbn [map flat_map fst snd]. rewrite test_calls. replace (i =? 0) with false by (symmetry; apply Nat.eqb_neq; lia). cbn [app].
    apply iterated_inv in H1. destruct H1 as (_ & -> & _). f_equal. apply (IH (S i)); [lia|exact H2].
Qed.
Lemma system_ok : forall r names tests s ops, tests <> [] -> system_rows (length names) r names tests (s, nth s names []) = Ok ops ->
  ops = flat_map calls (system_row printed names tests s)
  /\ forall ik, In ik (number_from 0 tests) -> Forall (fun v => length v < 2000) (values names (s, nth s names []) ik).
Proof.
  intros r names tests s ops Ht H. unfold system_rows in H. next H. apply ok_inj in H. subst ops. apply each_inv in E. rewrite indexed_from in E. split.
  - destruct tests as [|t tests]; [congruence|]. unfold system_row. unfold number_from in *. cbn [length seq combine] in *. inversion E as [|? y ? ys H1 H2]; subst.
    cbn [map flat_map fst snd]. rewrite test_calls. cbn [Nat.eqb app]. apply iterated_inv in H1. destruct H1 as (_ & -> & _). do 2 f_equal.
    apply (later_tests r names s tests 1); [lia|exact H2].
  - intros ik Hik. apply In_nth_error in Hik. destruct Hik as [k Hk]. destruct (F2_nth _ _ _ _ _ E Hk) as (y & _ & Y). apply iterated_inv in Y. apply Y.
Qed.
Lemma flat_len : forall {A} (f : nat -> list A) k l, (forall x, length (f x) = k) -> length (flat_map f l) = length l * k.
Proof. intros A f k l H. induction l as [|x l IH]; [reflexivity|]. cbn [flat_map length]. rewrite app_length, H, IH. lia. Qed.
Lemma test_good : forall names s ik, length names < 24 -> Forall (fun v => length v < 2000) (values names (s, nth s names []) ik) ->
  good_row (test_row printed names s (fst ik) (snd ik)).
Proof.
  intros names s [i k] L F. cbn [fst snd]. rewrite values_ok in F. cbn [fst snd] in F.
  apply (good_mk (grid_cols 114 114 108 (length names)) (s_vals (test_row printed names s i k)) (s_before (test_row printed names s i k)) []);
    [apply grid_good; cbn; auto| | |exact F|congruence].
  - rewrite spell_rows. change (length (row_fmt (length names))) with (length (bytes "c=c" ++ times (length names) (bytes "|rrl") ++ bytes "=c")).
    rewrite !app_length, times_length. change (length (bytes "c=c")) with 3. change (length (bytes "|rrl")) with 4. change (length (bytes "=c")) with 2. lia.
  - rewrite visible_rows. unfold test_row, under, mkrow. cbn [s_vals]. rewrite !app_length.
    rewrite (flat_len _ 3); [rewrite seq_length; cbn [length]; unfold str, Rpg_Model.str in *; lia|]. intros x. unfold about. destruct (s <? x); reflexivity.
Qed.
Lemma system_rows_good : forall names tests s, length names < 24 ->
  (forall ik, In ik (number_from 0 tests) -> Forall (fun v => length v < 2000) (values names (s, nth s names []) ik)) -> Forall good_row (system_row printed names tests s).
Proof.
  intros names tests s L H. unfold system_row. apply Forall_forall. intros r Hr. apply in_map_iff in Hr. destruct Hr as (ik & <- & Hik).
  apply test_good; [exact L|apply H; exact Hik].
Qed.
Lemma names_calls : forall names, calls (names_row names) = [Separation 45%N true; Row (title_fmt (length names)) ([bytes "Test//Abbrev."; []] ++ names ++ [bytes "Test//Abbrev."])].
Proof. intros. unfold calls. change (s_cols (names_row names)) with (grid_cols 99 97 97 (length names)). rewrite spell_title. reflexivity. Qed.
Lemma names_good : forall names, length names < 24 -> Forall (fun v => length v < 2000) ([bytes "Test//Abbrev."; []] ++ names ++ [bytes "Test//Abbrev."]) -> good_row (names_row names).
Proof.
  intros names L F. apply (good_mk (grid_cols 99 97 97 (length names)) ([bytes "Test//Abbrev."; []] ++ names ++ [bytes "Test//Abbrev."]) [45%N] []);
    [apply grid_good; cbn; auto| | |exact F|congruence].
  - rewrite spell_title, title_length. lia.
  - rewrite visible_title, !app_length. cbn [length]. unfold str in *. lia.
Qed.
Lemma room_ok : forall n, room n <= 60 -> n <= 50.
Proof. intros n. unfold room. destruct (Nat.leb_spec n 50); lia. Qed.

(** ** All of it *)
Lemma bodies : forall r names tests ks ops, tests <> [] ->
  Forall2 (fun me y => system_rows (length names) r names tests me = Ok y) (map (fun s => (s, nth s names [])) ks) ops ->
  concat ops = flat_map calls (flat_map (system_row printed names tests) ks)
  /\ (length names < 24 -> Forall good_row (flat_map (system_row printed names tests) ks)).
Proof.
  intros r names tests ks. induction ks as [|k ks IH]; intros ops Ht H.
  - inversion H; subst. split; [reflexivity|constructor].
  - cbn [map] in H. inversion H as [|? y ? ys H1 H2]; subst. destruct (IH ys Ht H2) as (A & B). destruct (system_ok _ _ _ _ _ Ht H1) as (D & E).
    cbn [concat flat_map]. rewrite flat_map_app, <- D, <- A. split; [reflexivity|]. intros L. apply Forall_app. split; [apply system_rows_good; assumption|apply B; exact L].
Qed.
Lemma remarks_short : Forall (fun r : str => length r < 2000) remarks.
Proof. apply Forall_forall. intros r Hr. assert (G : forallb (fun r : str => length r <? 100) remarks = true) by reflexivity. rewrite forallb_forall in G. specialize (G r Hr). apply Nat.ltb_lt in G. lia. Qed.
Lemma unified_rows_ok : forall testname names tests ops, tests <> [] -> length testname < 1900 -> unified_ops testname names tests = Ok ops ->
  exists h g ls, let rows := unified_rows printed testname names tests h g ls remarks in
    ops = flat_map calls rows /\ Forall good_row rows
    /\ words h = [bytes "Test"; bytes "Name"; bytes "Abbrev."]
    /\ (exists a b, g = repeat 45%N a ++ repeat 32%N 5 ++ repeat 45%N b) /\ length g = length h
    /\ Forall2 (fun t l => words l = words (t_desc t) ++ words (t_id t) /\ length l = length h) tests ls
    /\ length names <= 15.
Proof.
  intros testname names tests ops Ht Hn H. unfold unified_ops in H. cbv zeta in H. set (d := Sig_Model.longest 9 (map t_desc tests)) in *. set (s := Sig_Model.longest 7 (map t_id tests)) in *.
  rewrite title_length in H. destruct (Nat.leb_spec 100 (5 + 4 * length names)) as [K|K]; [discriminate H|].
  apply rbind_ok in H. destruct H as (h & Hh & H). apply rbind_ok in H. destruct H as (g & Hg & H). apply rbind_ok in H. destruct H as (lg & Hl & H).
  apply rbind_ok in H. destruct H as (ti & Hti & H). apply rbind_ok in H. destruct H as (bo & Hb & H). apply ok_inj in H.
  assert (D9 : (9 <= d)%Z) by apply (proj1 (longest_fold _ 9)). assert (S7 : (7 <= s)%Z) by apply (proj1 (longest_fold _ 7)).
  destruct (legend_line_ok _ _ _ _ _ Hh) as (H1 & H2 & H3). specialize (H3 D9 S7).
  destruct (legend_dashes_ok d s g ltac:(lia) ltac:(lia) Hg) as (G1 & G2 & G3).
  unfold Uni_Model.legend_rows in Hl. apply rbind_ok in Hl. destruct Hl as (lr & Hlr & Hl). apply ok_inj in Hl. apply each_inv in Hlr. rewrite indexed_from in Hlr.
  destruct (legend_from (length names) d s tests 0 (length tests) lr eq_refl Hlr) as (ls & L1 & L2).
  apply iterated_inv in Hti. destruct Hti as (T1 & T2 & T3). apply room_ok in T1.
  apply each_inv in Hb. rewrite numbered_map in Hb. destruct (bodies _ _ _ _ _ Ht Hb) as (B1 & B2).
  assert (LS : Forall2 (fun t l => words l = words (t_desc t) ++ words (t_id t) /\ length l < 100 /\ length l = length h) tests ls).
  { assert (X : Forall (fun t => (slen (t_desc t) <= d)%Z /\ (slen (t_id t) <= s)%Z) tests).
    { apply Forall_forall. intros t Ti. split; [apply (proj2 (longest_fold _ 9))|apply (proj2 (longest_fold _ 7))]; apply in_map; exact Ti. }
    clearbody d s. clear - L2 X H3. induction L2 as [|t l tests' ls' A B IH]; [constructor|]. inversion X as [|? ? [X1 X2] X3]; subst. constructor; [|apply IH; assumption].
    destruct (legend_line_ok _ _ _ _ _ A) as (Q1 & Q2 & Q3). specialize (Q3 X1 X2). split; [exact Q1|]. split; [exact Q2|]. lia. }
  exists h, g, ls. cbv zeta. split; [|split; [|split; [|split; [|split; [|split]]]]].
  - rewrite <- H, <- Hl, L1, T2, B1. unfold unified_rows. cbv zeta. rewrite !flat_map_app. cbn [flat_map]. rewrite names_calls, !across_calls.
    change remarks with (hd [] remarks :: tl remarks) at 2. cbn match. cbn [flat_map]. rewrite acrosses.
    assert (U : forall b v, calls (under [b] (across (length names) v)) = [Separation b true; Row (header_fmt (length names)) [v]]).
    { intros b v. unfold calls. cbn [under across mkrow s_before s_after s_cols s_vals app map]. rewrite spell_across. reflexivity. }
    rewrite !U. cbn [app]. reflexivity.
  - assert (N24 : length names < 24) by (unfold str, Rpg_Model.str in *; lia). unfold unified_rows. cbv zeta.
    assert (AC : forall v b a, length v < 2000 -> good_row {| s_cols := s_cols (across (length names) v); s_vals := [v]; s_before := b; s_after := a |}) by (intros; apply across_row; assumption).
    apply Forall_app. split; [|apply Forall_app; split; [|apply Forall_app; split; [|apply Forall_app; split]]].
    + constructor; [apply (AC _ [] []); vm_compute; lia|]. constructor; [apply (AC _ [] []); rewrite !app_length; change (length (bytes "For the ")) with 8; change (length (bytes " Test")) with 5; lia|].
      constructor; [apply (AC h [32%N] []); lia|]. constructor; [apply (AC g [] []); lia|constructor].
    + apply legend_good; [exact N24|]. clear - LS. induction LS as [|t l tests' ls' A B IH]; constructor; [apply A|exact IH].
    + constructor; [apply names_good; assumption|constructor].
    + apply B2. exact N24.
    + pose proof remarks_short as RS. destruct remarks as [|r rs]; [constructor|]. inversion RS; subst. constructor; [apply (AC r [45%N] []); assumption|].
      apply Forall_forall. intros x Hx. apply in_map_iff in Hx. destruct Hx as (v & <- & Hv). apply (AC v [] []).
      match goal with F : Forall _ rs |- _ => rewrite Forall_forall in F; apply F; exact Hv end.
  - exact H1.
  - eexists _, _. exact G1.
  - unfold str, Rpg_Model.str in *; lia.
  - clear - LS. induction LS as [|t l tests' ls' A B IH]; constructor; [split; [apply A|apply A]|exact IH].
  - unfold str, Rpg_Model.str in *; lia.
Qed.
