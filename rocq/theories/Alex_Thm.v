(** C102: the lists of strings with their numbers of occurrences. *)
From Coq Require Import List Arith ZArith NArith Bool Sorted Permutation Lia.
From Verif Require Import Base Text_Model Text_Spec Text_Thm Word_Model Order_Model Order_Spec Order_Thm Alex_Model Alex_Spec Alex_Proofs1 Alex_Proofs2 Alex_Proofs3.
Import ListNotations.
Local Open Scope nat_scope.

(** Counting any strings, in any order and however many, and printing with a threshold of at most one
    lists each of them once with its number of occurrences, the most frequent first and strings of
    equal frequency in the order of the strings; the arrays grow as needed. *)
Theorem C102_listing : forall qsort, qsort_contract qsort -> forall e size ws threshold,
  0 < size -> Forall (well_formed e) ws -> (Z.of_nat (length ws) < 2 ^ 31)%Z -> (threshold <= 1)%Z ->
  exists r, listing_of_words qsort e size ws threshold = Ok r /\ lists e ws r.
Proof. intros q Hq e size ws t. apply listing_ok. exact Hq. Qed.
Print Assumptions C102_listing.

(** The list does not depend on the order in which the strings come, nor on the first size. *)
Theorem C102_any_order : forall qsort, qsort_contract qsort -> forall e size size' ws ws' threshold threshold' r r',
  0 < size -> 0 < size' -> Forall (well_formed e) ws -> Permutation ws ws' -> (Z.of_nat (length ws) < 2 ^ 31)%Z ->
  (threshold <= 1)%Z -> (threshold' <= 1)%Z ->
  listing_of_words qsort e size ws threshold = Ok r -> listing_of_words qsort e size' ws' threshold' = Ok r' -> r = r'.
Proof.
  intros q Hq e z1 z2 ws ws' t t' r r' Hs Hs' W P L T T' E E'.
  assert (W' : Forall (well_formed e) ws') by (rewrite Forall_forall in *; intros x Hx; apply W; eapply Permutation_in; [apply Permutation_sym; exact P|exact Hx]).
  pose proof (Permutation_length P) as Lp.
  destruct (listing_ok q Hq e z1 ws t Hs W L T) as (r1 & E1 & L1). rewrite E in E1. injection E1 as <-.
  destruct (listing_ok q Hq e z2 ws' t' Hs' W') as (r2 & E2 & L2); [lia|exact T'|]. rewrite E' in E2. injection E2 as <-.
  clear E E' W W'. destruct L1, L2.
  assert (Tm : forall s, times ws s = times ws' s) by (intros x; apply (Permutation_count_occ (list_eq_dec N.eq_dec)); exact P).
  assert (K : map (fun x => (snd (fst x), snd x)) (li_lines r) = map (fun x => (snd (fst x), snd x)) (li_lines r')).
  { assert (Uniq : forall u v : list (Z * list N),
        StronglySorted (fun x y => (fst y < fst x)%Z \/ (fst x = fst y /\ text_before e (snd x) (snd y))) u ->
        StronglySorted (fun x y => (fst y < fst x)%Z \/ (fst x = fst y /\ text_before e (snd x) (snd y))) v ->
        (forall x, In x u <-> In x v) -> u = v).
    { induction u as [|x u IH]; intros v Su Sv I.
      - destruct v as [|y v]; [reflexivity|]. exfalso. apply (proj2 (I y)). left; reflexivity.
      - destruct v as [|y v]; [exfalso; apply (proj1 (I x)); left; reflexivity|].
        inversion Su as [|? ? Su1 Fu]; subst. inversion Sv as [|? ? Sv1 Fv]; subst. rewrite Forall_forall in Fu, Fv.
        assert (Exy : x = y).
        { destruct (proj1 (I x) (or_introl eq_refl)) as [->|Hx]; [reflexivity|]. destruct (proj2 (I y) (or_introl eq_refl)) as [->|Hy]; [reflexivity|].
          specialize (Fv x Hx). specialize (Fu y Hy). cbn in Fu, Fv. exfalso. destruct Fu as [A|[A A']], Fv as [B|[B B']]; try lia.
          exact (before_asym e _ _ A' B'). }
        subst y. f_equal. apply IH; [assumption|assumption|]. intros z. split; intros Hz.
        + destruct (proj1 (I z) (or_intror Hz)) as [->|Hz']; [|exact Hz']. exfalso. specialize (Fu z Hz). cbn in Fu. destruct Fu as [A|[_ A]]; [lia|exact (before_irr e _ A)].
        + destruct (proj2 (I z) (or_intror Hz)) as [->|Hz']; [|exact Hz']. exfalso. specialize (Fv z Hz). cbn in Fv. destruct Fv as [A|[_ A]]; [lia|exact (before_irr e _ A)]. }
    assert (SSm : forall ls, StronglySorted (line_before e) ls ->
        StronglySorted (fun x y => (fst y < fst x)%Z \/ (fst x = fst y /\ text_before e (snd x) (snd y))) (map (fun x : nat * Z * list N => (snd (fst x), snd x)) ls)).
    { intros ls S. induction S as [|x ls S IH F]; cbn [map]; constructor; [exact IH|]. rewrite Forall_forall in *. intros y Hy.
      apply in_map_iff in Hy as (z & <- & Hz). specialize (F z Hz). destruct x as ((? & ?) & ?), z as ((? & ?) & ?). exact F. }
    apply Uniq; [apply SSm; assumption|apply SSm; assumption|].
    assert (Dir : forall la lb (wa wb : list (list N)), (forall s, times wa s = times wb s) ->
        (forall w, In w wb <-> In w (map snd lb)) -> (forall w, In w wa <-> In w (map snd la)) -> (forall w, In w wa -> In w wb) ->
        (forall (k : nat) n s, In (k, n, s) la -> n = Z.of_nat (times wa s)) -> (forall (k : nat) n s, In (k, n, s) lb -> n = Z.of_nat (times wb s)) ->
        forall x, In x (map (fun x => (snd (fst x), snd x)) la) -> In x (map (fun x => (snd (fst x), snd x)) lb)).
    { intros la lb wa wb Te I2 I1 Inc C1 C2 x Hx. apply in_map_iff in Hx as (((k & n) & s) & <- & H). cbn.
      assert (In s (map snd lb)) as J by (apply I2, Inc, I1; apply (in_map snd) in H; exact H).
      apply in_map_iff in J as (((k' & n') & s') & Es & J). cbn in Es. subst s'. apply in_map_iff. exists (k', n', s). split; [|exact J]. cbn.
      rewrite (C1 _ _ _ H), (C2 _ _ _ J), Te. reflexivity. }
    intros x. split.
    - apply (Dir _ _ ws ws'); try assumption. intros w Hw. eapply Permutation_in; eassumption.
    - apply (Dir _ _ ws' ws); try assumption; [intros; symmetry; apply Tm|]. intros w Hw. eapply Permutation_in; [apply Permutation_sym; exact P|exact Hw]. }
  assert (Len : length (li_lines r) = length (li_lines r')) by (apply (f_equal (@length _)) in K; rewrite !map_length in K; exact K).
  assert (Ln : li_lines r = li_lines r').
  { rewrite <- Len in ls_number0. rewrite <- ls_number in ls_number0. clear - K ls_number0. revert K ls_number0. generalize (li_lines r) (li_lines r').
    induction l as [|((a & b) & c) l IH]; intros [|((a' & b') & c') l'] K M; cbn in *; try discriminate; [reflexivity|].
    injection K as -> -> K. injection M as -> M. f_equal. apply IH; assumption. }
  destruct r, r'. cbn in *. subst. f_equal; lia.
Qed.
Print Assumptions C102_any_order.

(** The number a string gets on insertion is its place in the order of first occurrence, so it is the
    same for equal strings, different for different ones, and later insertions do not change it. *)
Theorem C102_numbers : forall e size ws w, 0 < size -> Forall (well_formed e) ws -> well_formed e w ->
  exists l l' i, lex_count_all e (lex_init size) ws = Ok l /\ lex_insert e l w = Ok (l', i)
    /\ nth_error (firsts (ws ++ [w])) i = Some w /\ NoDup (firsts (ws ++ [w]))
    /\ (forall more, nth_error (firsts (ws ++ [w] ++ more)) i = Some w).
Proof.
  intros e size ws w Hs W Ww. destruct (count_all_ok e ws [] _ [] (init_inv e size Hs) W) as (l & so & E & Iv). cbn [app] in Iv.
  destruct (insert_ok e ws ws l so w Iv Ww) as (l' & so' & i & E' & _ & Hi & Hw). exists l, l', i. split; [exact E|]. split; [exact E'|].
  assert (G : nth_error (firsts (ws ++ [w])) i = Some w) by (rewrite (nth_error_nth' _ [] Hi), Hw; reflexivity).
  split; [exact G|]. split; [apply firsts_nodup|]. intros more. rewrite app_assoc. revert G. generalize (ws ++ [w]). clear. revert i.
  induction more as [|m more IH] using rev_ind; intros i v G; [rewrite app_nil_r; exact G|]. rewrite app_assoc, firsts_snoc.
  rewrite nth_error_app1; [apply IH; exact G|]. apply nth_error_Some. rewrite (IH i v G). discriminate.
Qed.
Print Assumptions C102_numbers.

(** Looking a string up gives -1 when it was never inserted and otherwise how many of the strings come
    before it. *)
Theorem C102_find : forall e size ws w, 0 < size -> Forall (well_formed e) ws -> well_formed e w ->
  exists l z, lex_count_all e (lex_init size) ws = Ok l /\ lex_find e l w = Ok z
    /\ (~ In w ws -> z = (-1)%Z)
    /\ (In w ws -> exists before after, Permutation (firsts ws) (before ++ w :: after) /\ z = Z.of_nat (length before)
          /\ Forall (fun s => text_before e s w) before /\ Forall (text_before e w) after).
Proof.
  intros e size ws w Hs W Ww. destruct (count_all_ok e ws [] _ [] (init_inv e size Hs) W) as (l & so & E & Iv). cbn [app] in Iv.
  exists l. unfold lex_find. destruct Iv.
  destruct (index_ok e ws l so i_num i_str i_sort i_perm i_ss i_wf w Ww) as (r & -> & R). cbn [rbind]. eexists. split; [exact E|]. split; [reflexivity|].
  destruct r as [i|i].
  - destruct R as [Hi Ew]. assert (In w ws) by (eapply at_in; eassumption). split; [contradiction|]. intros _.
    assert (Ls : length so = x_num l) by (apply so_len; assumption).
    exists (map (fun j => nth j (firsts ws) []) (firstn i so)), (map (fun j => nth j (firsts ws) []) (skipn (S i) so)).
    assert (Dec : so = firstn i so ++ nth i so 0 :: skipn (S i) so).
    { rewrite <- (firstn_skipn i so) at 1. f_equal. rewrite <- Ls in Hi. clear - Hi. revert i Hi. induction so as [|x so IH]; intros [|i] Hi; cbn in *; try lia; [reflexivity|]. apply IH; lia. }
    split; [|split; [|split]].
    + transitivity (map (fun j => nth j (firsts ws) []) so).
      * transitivity (map (fun j => nth j (firsts ws) []) (seq 0 (x_num l))); [|apply Permutation_map, Permutation_sym, i_perm].
        rewrite <- i_num, (Order_Proofs1.map_nth_seq (firsts ws) []). reflexivity.
      * rewrite Dec at 1. rewrite map_app. cbn [map]. unfold at_pos in Ew. rewrite Ew. reflexivity.
    + rewrite map_length, firstn_length. f_equal. lia.
    + apply Forall_forall. intros s Hs'. apply in_map_iff in Hs' as (j & <- & Hj). destruct (In_nth _ _ 0 Hj) as (p & Hp & Ep). rewrite firstn_length in Hp.
      rewrite nth_firstn in Ep by lia. rewrite <- Ep, <- Ew. apply (at_lt e ws l so i_perm i_ss); lia.
    + apply Forall_forall. intros s Hs'. apply in_map_iff in Hs' as (j & <- & Hj). destruct (In_nth _ _ 0 Hj) as (p & Hp & Ep). rewrite skipn_length in Hp.
      assert (X : nth (S i + p) so 0 = j).
      { rewrite <- Ep. rewrite <- (firstn_skipn (S i) so) at 1. rewrite app_nth2; rewrite firstn_length_le by lia; [|lia]. f_equal. lia. }
      rewrite <- X, <- Ew. apply (at_lt e ws l so i_perm i_ss); lia.
  - destruct R as (Hi & A & B). split; [reflexivity|]. intros I. exfalso. eapply not_in_at; eassumption.
Qed.
Print Assumptions C102_find.

(** The threshold works only up to one.  With a threshold of two, the string that occurs once is shown
    and the one that occurs twice is left out. *)
Theorem C102_threshold_refuted : exists ws r, listing_of_words isort ASCII 200 ws 2 = Ok r
  /\ li_often r = 1 /\ times ws [97%N] = 2 /\ times ws [98%N] = 1
  /\ li_lines r = [(1, 1%Z, [98%N])] /\ li_sum r = 1%Z.
Proof. exists [[98%N]; [97%N]; [97%N]]. eexists. split; [vm_compute; reflexivity|]. vm_compute. repeat split. Qed.
Print Assumptions C102_threshold_refuted.

(** What looking up gives is a place in the order of the strings, not the number that inserting gave:
    corresp.c:358-363 uses it to index the counters and so counts for another string. *)
Theorem C102_find_is_not_a_number_refuted : exists l l' i,
  lex_count_all ASCII (lex_init 200) [[98%N]; [97%N]] = Ok l /\ lex_find ASCII l [97%N] = Ok 0%Z
  /\ lex_insert ASCII l [97%N] = Ok (l', i) /\ i = 1 /\ cell (x_str l') 0 = Ok [98%N].
Proof. do 3 eexists. split; [vm_compute; reflexivity|]. split; [vm_compute; reflexivity|]. split; [vm_compute; reflexivity|]. split; reflexivity. Qed.
Print Assumptions C102_find_is_not_a_number_refuted.

(** A lexicon of no size never grows: the first string is written outside the arrays. *)
Theorem C102_no_size_refuted : forall e w, lex_insert e (lex_init 0) w = Undef.
Proof. reflexivity. Qed.
Print Assumptions C102_no_size_refuted.

Definition lex_example : list (list N) := [[116; 104; 101]; [97]; [116; 104; 101]; [122]; [97; 110]; [97]; [116; 104; 101]]%N.
Example C102_example : qsort_contract isort /\ Forall (well_formed ASCII) lex_example /\
  exists r, listing_of_words isort ASCII 1 lex_example 1 = Ok r /\ li_total r = 4 /\ li_sum r = 7%Z
    /\ li_lines r = [(1, 3%Z, [116; 104; 101]%N); (2, 2%Z, [97]%N); (3, 1%Z, [97; 110]%N); (4, 1%Z, [122]%N)].
Proof.
  split; [exact isort_contract|]. split.
  - assert (K : forall s, forallb (fun b => (0 <? b)%N && (b <? 256)%N) s = true -> well_formed ASCII s).
    { intros s H. exists (map (fun b => [b]) s). split.
      - clear H. induction s as [|b s IH]; cbn; [reflexivity|]. f_equal. exact IH.
      - apply Forall_forall. intros c Hc. apply in_map_iff in Hc as (b & <- & Hb). exists b, []. split; [reflexivity|]. split; [reflexivity|].
        rewrite forallb_forall in H. specialize (H b Hb). apply andb_prop in H as [H1 H2]. apply N.ltb_lt in H1, H2. repeat constructor; assumption. }
    unfold lex_example. repeat constructor; apply K; reflexivity.
  - eexists. split; [vm_compute; reflexivity|]. repeat split.
Qed.
