(** Proofs about Trn_Model: order, search, ids. *)
From Coq Require Import List NArith ZArith Arith Bool Lia Permutation Sorted.
From Verif Require Import Base Chan_Model Read_Model Read_Spec Read_Proofs Read_Proofs3 Trn_Model Trn_Spec.
Import ListNotations.
Local Open Scope res_scope.

(** ** Order *)
Lemma scmp_eq a : forall b, scmp a b = Eq <-> a = b.
Proof.
  induction a as [|x a IH]; intros [|y b]; cbn [scmp]; try (split; congruence).
  destruct (N.compare_spec x y) as [->|H|H].
  - rewrite IH. split; congruence.
  - split; [discriminate|]. intro E; injection E; intros; subst; lia.
  - split; [discriminate|]. intro E; injection E; intros; subst; lia.
Qed.
Lemma scmp_refl a : scmp a a = Eq.
Proof. apply scmp_eq. reflexivity. Qed.
Lemma scmp_anti a : forall b, scmp b a = CompOpp (scmp a b).
Proof.
  induction a as [|x a IH]; intros [|y b]; cbn [scmp]; try reflexivity.
  rewrite (N.compare_antisym x y). destruct (N.compare x y); cbn [CompOpp]; auto.
Qed.
Lemma scmp_lt_trans a : forall b c, scmp a b = Lt -> scmp b c = Lt -> scmp a c = Lt.
Proof.
  induction a as [|x a IH]; intros [|y b] [|z c]; cbn [scmp]; try congruence.
  destruct (N.compare_spec x y) as [->|H|H]; try discriminate.
  - intros E1. destruct (N.compare_spec y z); auto; eauto; discriminate.
  - intros _. destruct (N.compare_spec y z) as [->|H2|H2]; try discriminate; intros _.
    + rewrite (proj2 (N.compare_lt_iff _ _) H). reflexivity.
    + rewrite (proj2 (N.compare_lt_iff x z)) by lia. reflexivity.
Qed.
Definition le (a b : str) : Prop := scmp a b <> Gt.
Lemma le_trans a b c : le a b -> le b c -> le a c.
Proof.
  unfold le. intros H1 H2 H3. destruct (scmp a b) eqn:E1; [| |congruence].
  - apply scmp_eq in E1. subst. congruence.
  - destruct (scmp b c) eqn:E2; [| |congruence].
    + apply scmp_eq in E2. subst. congruence.
    + rewrite (scmp_lt_trans _ _ _ E1 E2) in H3. discriminate.
Qed.
Lemma insert_perm x l : Permutation (insert x l) (x :: l).
Proof.
  induction l as [|y l IH]; cbn [insert]; [reflexivity|]. destruct (scmp x y); try reflexivity.
  rewrite IH. apply perm_swap.
Qed.
Lemma qsort_perm l : Permutation (qsort l) l.
Proof. induction l as [|x l IH]; cbn [qsort fold_right]; [reflexivity|]. rewrite insert_perm. constructor. exact IH. Qed.
Lemma insert_sorted x l : StronglySorted le l -> StronglySorted le (insert x l).
Proof.
  induction 1 as [|y l S IH F]; cbn [insert]; [repeat constructor|]. destruct (scmp x y) eqn:E.
  - apply scmp_eq in E. subst y. constructor; [constructor; assumption|]. constructor; [unfold le; rewrite scmp_refl; discriminate|exact F].
  - constructor; [constructor; assumption|]. constructor; [unfold le; congruence|].
    eapply Forall_impl; [|exact F]. intros z Hz. eapply le_trans; [|exact Hz]. unfold le. congruence.
  - constructor; [exact IH|]. rewrite Forall_forall. intros z Hz.
    apply (Permutation_in z (insert_perm x l)) in Hz. destruct Hz as [<-|Hz].
    + unfold le. rewrite scmp_anti, E. discriminate.
    + rewrite Forall_forall in F. auto.
Qed.
Lemma qsort_sorted l : StronglySorted le (qsort l).
Proof. induction l as [|x l IH]; cbn [qsort fold_right]; [constructor|apply insert_sorted, IH]. Qed.

Lemma sorted_nth l : StronglySorted le l -> forall i j a b, (i <= j)%nat -> nth_error l i = Some a -> nth_error l j = Some b -> le a b.
Proof.
  induction 1 as [|y l S IH F]; intros i j a b L A B; [destruct i; discriminate|].
  destruct i as [|i], j as [|j]; cbn [nth_error] in *; try lia.
  - assert (a = b) by congruence. subst. unfold le. rewrite scmp_refl. discriminate.
  - injection A as <-. apply nth_error_In in B. rewrite Forall_forall in F. auto.
  - eapply IH; [|exact A|exact B]. lia.
Qed.
Lemma div2_between lo hi : (lo < hi)%nat -> (lo <= Nat.div2 (lo + hi) < hi)%nat.
Proof.
  intros L. pose proof (Nat.div2_odd (lo + hi)) as E. destruct (Nat.odd (lo + hi)); cbn [Nat.b2n] in E; lia.
Qed.
Lemma bsearch_loop_ok l key : StronglySorted le l -> forall fuel lo hi, (hi <= length l)%nat -> (hi - lo < fuel)%nat ->
  (forall i, nth_error l i = Some key -> (lo <= i < hi)%nat) ->
  (exists i, bsearch_loop fuel key l lo hi = Ok (Some i) /\ nth_error l i = Some key) \/
  (bsearch_loop fuel key l lo hi = Ok None /\ ~ In key l).
Proof.
  intros S. induction fuel as [|f IH]; intros lo hi H F K; [lia|]. cbn [bsearch_loop].
  destruct (Nat.ltb_spec lo hi) as [L|L].
  - destruct (div2_between lo hi L) as [M1 M2]. cbv zeta. set (mid := Nat.div2 (lo + hi)) in *.
    destruct (nth_error l mid) as [x|] eqn:Ex.
    + destruct (scmp key x) eqn:C.
      * apply scmp_eq in C. subst x. left. eauto.
      * apply IH; [lia|lia|]. intros i Hi. specialize (K i Hi). split; [lia|].
        destruct (Nat.ltb_spec i mid) as [X|X]; [exact X|exfalso].
        pose proof (sorted_nth l S mid i x key X Ex Hi) as Q. unfold le in Q. rewrite scmp_anti, C in Q. apply Q. reflexivity.
      * apply IH; [lia|lia|]. intros i Hi. specialize (K i Hi). split; [|lia].
        destruct (Nat.ltb_spec mid i) as [X|X]; [lia|exfalso].
        pose proof (sorted_nth l S i mid key x X Hi Ex) as Q. unfold le in Q. congruence.
    + exfalso. apply nth_error_None in Ex. lia.
  - right. split; [reflexivity|]. intro I. apply In_nth_error in I. destruct I as (i & Hi). specialize (K i Hi). lia.
Qed.
Lemma bsearch_ok l key : StronglySorted le l ->
  (exists i, bsearch key l = Ok (Some i) /\ nth_error l i = Some key) \/ (bsearch key l = Ok None /\ ~ In key l).
Proof.
  intros S. apply bsearch_loop_ok; [exact S|lia|lia|]. intros i Hi. split; [lia|]. apply nth_error_Some. congruence.
Qed.

(** ** Ids *)
Lemma rchr_none c l : ~ In c l -> rchr c l = None.
Proof.
  induction l as [|x l IH]; intros N0; cbn [rchr]; [reflexivity|]. rewrite IH by (intro; apply N0; right; assumption).
  destruct (N.eqb_spec x c) as [->|]; [exfalso; apply N0; left; reflexivity|reflexivity].
Qed.
Lemma rchr_some c a b : ~ In c b -> rchr c (a ++ c :: b) = Some (length a).
Proof.
  intros N0. induction a as [|x a IH]; cbn [app rchr length].
  - rewrite rchr_none by exact N0. rewrite N.eqb_refl. reflexivity.
  - rewrite IH. reflexivity.
Qed.
Lemma rchr_is c l : match rchr c l with Some i => exists a b, l = a ++ c :: b /\ length a = i /\ ~ In c b | None => ~ In c l end.
Proof.
  induction l as [|x l IH]; cbn [rchr]; [auto|]. destruct (rchr c l) as [i|].
  - destruct IH as (a & b & -> & <- & Nb). exists (x :: a), b. auto.
  - destruct (N.eqb_spec x c) as [->|NE]; [exists [], l; auto|]. intros [E|I]; auto.
Qed.
Lemma lower_small c x : (c < 65)%N -> lower x = c <-> x = c.
Proof.
  intros H. unfold lower. destruct ((65 <=? x)%N && (x <=? 90)%N) eqn:E; [|reflexivity].
  apply andb_true_iff in E. destruct E as [E1 E2]. apply N.leb_le in E1, E2. lia.
Qed.
Lemma rchr_lower c l : (c < 65)%N -> rchr c (map lower l) = rchr c l.
Proof.
  intros H. induction l as [|x l IH]; cbn [map rchr]; [reflexivity|]. rewrite IH. destruct (rchr c l); [reflexivity|].
  destruct (N.eqb_spec (lower x) c) as [E|E], (N.eqb_spec x c) as [E'|E']; try reflexivity; rewrite lower_small in E by exact H; congruence.
Qed.
Lemma lower_lower x : lower (lower x) = lower x.
Proof.
  unfold lower at 2 3. destruct ((65 <=? x)%N && (x <=? 90)%N) eqn:E; unfold lower; [|rewrite E; reflexivity].
  apply andb_true_iff in E. destruct E as [E1 E2]. apply N.leb_le in E1, E2.
  destruct ((65 <=? x + 32)%N && (x + 32 <=? 90)%N) eqn:E'; [|reflexivity].
  apply andb_true_iff in E'. destruct E' as [E3 E4]. apply N.leb_le in E3, E4. lia.
Qed.
Lemma cased_twice cs l : cased cs (cased cs l) = cased cs l.
Proof. destruct cs; cbn [cased]; [reflexivity|]. rewrite map_map. apply map_ext. apply lower_lower. Qed.
Lemma fold_cased cs l : fold_case cs l = cased cs l.
Proof. reflexivity. Qed.

Lemma remove_id_cased cs l : remove_id (cased cs l) = (let* (t, i) := remove_id l in Ok (cased cs t, cased cs i)).
Proof.
  destruct cs; cbn [cased]; [destruct (remove_id l) as [[t i]| | |]; reflexivity|].
  unfold remove_id. rewrite !rchr_lower by lia.
  destruct (rchr 41 l) as [r|], (rchr 40 l) as [p|]; try reflexivity.
  destruct (Nat.ltb (r + 1) p); [reflexivity|]. cbn [rbind]. rewrite skipn_map, !firstn_map. reflexivity.
Qed.
Lemma remove_id_ok l t i : Utterance l t i -> remove_id l = Ok (t, i).
Proof.
  intros U. unfold remove_id. destruct U as [l N1 N2|text x y N1 N2 N3].
  - rewrite !rchr_none by assumption. reflexivity.
  - assert (N4 : ~ In 40%N (x ++ 41%N :: y)).
    { intro I. apply in_app_iff in I. destruct I as [I|[I|I]]; [auto|discriminate|auto]. }
    rewrite (rchr_some 40 text (x ++ 41%N :: y) N4).
    replace (text ++ 40%N :: x ++ 41%N :: y) with ((text ++ 40%N :: x) ++ 41%N :: y) at 1 by (rewrite <- app_assoc; reflexivity).
    rewrite (rchr_some 41 (text ++ 40%N :: x) y N3). rewrite app_length. cbn [length].
    destruct (Nat.ltb_spec (length text + S (length x) + 1) (length text)) as [X|X]; [lia|]. f_equal. f_equal.
    + rewrite firstn_app, Nat.sub_diag, firstn_all. cbn [firstn]. apply app_nil_r.
    + rewrite skipn_app, Nat.sub_diag, skipn_all. cbn [skipn app].
      replace (length text + S (length x) + 1 - length text)%nat with (length (40%N :: x ++ [41%N])) by (cbn [length]; rewrite app_length; cbn [length]; lia).
      replace (40%N :: x ++ 41%N :: y) with ((40%N :: x ++ [41%N]) ++ y) by (cbn [app]; rewrite <- app_assoc; reflexivity).
      rewrite firstn_app, Nat.sub_diag, firstn_all. cbn [firstn]. apply app_nil_r.
Qed.

(** ** Lines *)
Lemma read_loop_utts fuel : forall R ls, Utts R ls -> forall buf f, rest f = R -> feof f = false -> skippable buf = true ->
  (S (length R) < fuel)%nat ->
  match ls with
  | [] => exists l f', read_stm_loop fuel buf f = Ok (l, f') /\ feof f' = true
  | l :: ls' => exists f', read_stm_loop fuel buf f = Ok (l, f') /\ Utts (rest f') ls' /\ feof f' = false /\ (length (rest f') < length R)%nat
  end.
Proof.
  induction fuel as [|n IH]; intros R ls F buf f ER EF SK L; [lia|]. cbn [read_stm_loop]. rewrite EF, SK. cbn [negb andb].
  inversion F as [E1 E2|l r ls0 HL NL HS F' E1 E2|l r ls0 HL NL NS F' E1 E2|l HL NL E1 E2].
  - unfold get_line. rewrite ER, <- E1.
    destruct n as [|n]; [lia|]. cbn [read_stm_loop feof negb andb]. eauto.
  - subst ls0. destruct (get_line_spec f l r) as [-> _]; [congruence|exact HL|].
    rewrite EF, (newline_last l NL). cbn [orb].
    assert (LL : length R = (length l + length r)%nat) by (rewrite <- E1, app_length; reflexivity).
    assert (0 < length l)%nat by (destruct HL as (NE & _); destruct l; [congruence|cbn [length]; lia]).
    specialize (IH r ls F' l {| rest := r; feof := false |} eq_refl eq_refl (proj2 (skippable_iff l) HS) ltac:(lia)).
    destruct ls as [|s ss]; [exact IH|]. destruct IH as (f' & A & B & C & D). exists f'.
    split; [exact A|]. split; [exact B|]. split; [exact C|]. rewrite ?E1. lia.
  - subst ls. destruct (get_line_spec f l r) as [-> HN]; [congruence|exact HL|].
    assert (LL : length R = (length l + length r)%nat) by (rewrite <- E1, app_length; reflexivity).
    assert (0 < length l)%nat by (destruct HL as (NE & _); destruct l; [congruence|cbn [length]; lia]).
    destruct n as [|n]; [lia|]. cbn [read_stm_loop]. rewrite (proj2 (skippable_false l) NS), andb_false_r.
    eexists. split; [reflexivity|]. rewrite EF, (newline_last l NL). cbn [rest feof orb]. rewrite ?E1. split; [exact F'|]. split; [reflexivity|lia].
  - subst l. destruct (get_line_spec f R []) as [-> [HN|[HN _]]]; [rewrite app_nil_r; congruence|exact HL|contradiction|].
    rewrite HN, orb_true_r. destruct n as [|n]; [lia|]. cbn [read_stm_loop feof negb andb]. eauto.
Qed.
Lemma read_utts_ok fuel : forall R ls, Utts R ls -> (S (length R) < fuel)%nat -> read_utts fuel {| rest := R; feof := false |} = Ok ls.
Proof.
  induction fuel as [|n IH]; intros R ls F L; [lia|]. cbn [read_utts feof]. unfold read_stm_line. cbn [rest].
  pose proof (read_loop_utts (S (S (length R))) R ls F [59; 59]%N {| rest := R; feof := false |} eq_refl eq_refl eq_refl ltac:(lia)) as H.
  destruct ls as [|l ls].
  - destruct H as (l & f' & -> & E). cbn [rbind]. rewrite E. reflexivity.
  - destruct H as (f' & -> & F' & E & LL). cbn [rbind]. rewrite E. destruct f' as [R' e]. cbn [rest feof] in *. subst e.
    rewrite (IH R' ls F') by lia. reflexivity.
Qed.
Lemma lines_of_ok bytes ls : Utts bytes ls -> lines_of bytes = Ok ls.
Proof. intros F. apply read_utts_ok; [exact F|lia]. Qed.

Lemma split_is l : l <> [] -> exists a b, l = a ++ b /\ Line a b /\ (length b < length l)%nat.
Proof.
  intros NE. assert (H : exists x r, Forall (fun c => c <> 10%N) x /\ (l = x ++ 10%N :: r \/ l = x)).
  { clear NE. induction l as [|c l IH]; [exists [], []; auto|]. destruct (N.eq_dec c 10) as [->|NC]; [exists [], l; auto|].
    destruct IH as (x & r & F & [->| ->]); [exists (c :: x), r|exists (c :: x), []]; split; auto. }
  destruct H as (x & r & F & [->| ->]).
  - exists (x ++ [10%N]), r. rewrite <- app_assoc. split; [reflexivity|]. split; [|rewrite app_length; cbn [length]; lia].
    split; [destruct x; discriminate|]. eauto.
  - exists x, []. rewrite app_nil_r. split; [reflexivity|]. split; [split; [exact NE|eauto]|]. destruct x; [congruence|cbn [length]; lia].
Qed.
Lemma has_newline_dec l : has_newline l \/ ~ has_newline l.
Proof.
  destruct (N.eq_dec (last l 0%N) 10) as [E|E].
  - destruct l as [|c l]; [cbn in E; discriminate|]. left. exists (removelast (c :: l)). rewrite <- E at 1. apply app_removelast_last. discriminate.
  - right. intros (x & ->). apply E, last_last.
Qed.
(** Every file has its lines. *)
Lemma utts_total n : forall bytes, (length bytes < n)%nat -> exists ls, Utts bytes ls.
Proof.
  induction n as [|n IH]; intros bytes L; [lia|]. destruct bytes as [|c bytes]; [exists []; constructor|].
  destruct (split_is (c :: bytes)) as (a & b & E & HL & LB); [discriminate|].
  destruct (has_newline_dec a) as [H|H].
  - destruct (IH b) as (ls & U); [lia|]. rewrite E.
    destruct (skippable a) eqn:SK; [exists ls; apply ul_skip; auto; apply (proj1 (skippable_iff a)), SK|].
    exists (a :: ls). apply ul_use; auto. apply (proj1 (skippable_false a)), SK.
  - exists []. destruct HL as (NE & x & Fx & [Ex|[Ex Eb]]); [exfalso; apply H; exists x; exact Ex|]. subst b. rewrite app_nil_r in E. rewrite E.
    constructor; [split; [exact NE|exists x; auto]|exact H].
Qed.

(** ** The references *)
Lemma update_length {A} (l : list A) i x : length (update l i x) = length l.
Proof. revert i. induction l as [|y l IH]; intros [|i]; cbn [update length]; auto. Qed.
Lemma update_same {A} (l : list A) i x : (i < length l)%nat -> nth_error (update l i x) i = Some x.
Proof. revert i. induction l as [|y l IH]; intros [|i] L; cbn [update length nth_error] in *; try lia; [reflexivity|]. apply IH. lia. Qed.
Lemma update_other {A} (l : list A) i j x : i <> j -> nth_error (update l i x) j = nth_error l j.
Proof. revert i j. induction l as [|y l IH]; intros [|i] [|j] NE; cbn [update nth_error]; try reflexivity; try congruence. apply IH. congruence. Qed.
Definition some {A} (o : option A) : bool := match o with Some _ => true | None => false end.
Definition count (s : list (option str)) : nat := length (filter some s).
Lemma count_update s i t : nth_error s i = Some None -> count (update s i (Some t)) = S (count s).
Proof.
  unfold count. revert i. induction s as [|y s IH]; intros [|i] E; cbn [nth_error update filter] in *; try discriminate.
  - injection E as ->. reflexivity.
  - destruct (some y); cbn [length]; rewrite (IH i E); reflexivity.
Qed.
Lemma count_le s : (count s <= length s)%nat.
Proof. unfold count. induction s as [|y s IH]; cbn [filter length]; [lia|]. destruct (some y); cbn [length]; lia. Qed.
Lemma count_full s : count s = length s <-> Forall (fun o => o <> None) s.
Proof.
  induction s as [|y s IH]; [split; [constructor|reflexivity]|]. unfold count in *. cbn [filter length].
  pose proof (count_le s) as L. unfold count in L. destruct y; cbn [some length]; split.
  - intros E. constructor; [discriminate|]. apply IH. lia.
  - intros F. inversion F; subst. f_equal. apply IH. assumption.
  - intros E. lia.
  - intros F. inversion F; subst. congruence.
Qed.
Lemma prefix_ok p q : prefix_of p q = true <-> exists r, q = p ++ r.
Proof.
  revert q. induction p as [|x p IH]; intros q; cbn [prefix_of app]; [split; eauto|].
  destruct q as [|y q]; [split; [discriminate|intros (r & E); discriminate]|]. rewrite andb_true_iff, N.eqb_eq, IH. split.
  - intros (-> & r & ->). eauto.
  - intros (r & E). injection E as -> ->. eauto.
Qed.
Lemma first_last us id t : In (t, id) us -> exists t', First us id t'.
Proof.
  induction us as [|(t0, i0) us IH]; [intros []|]. intros [E|I].
  - injection E as -> ->. exists t, [], us. auto.
  - destruct (list_eq_dec N.eq_dec i0 id) as [->|NE]; [exists t0, [], us; auto|].
    destruct (IH I) as (t' & a & b & -> & NI). exists t', ((t0, i0) :: a), b. split; [reflexivity|]. cbn [map snd]. intros [E|J]; auto.
Qed.
Lemma first_in us id t : First us id t -> In (t, id) us.
Proof. intros (a & b & -> & _). apply in_app_iff. right. left. reflexivity. Qed.
Lemma first_fun us id t t' : First us id t -> First us id t' -> t = t'.
Proof.
  intros (a & b & E & NI) (a' & b' & E' & NI'). revert a' us E E' NI'. induction a as [|x a IH]; intros a' us E E' NI'.
  - subst us. destruct a' as [|y a']; cbn [app] in E'; [congruence|]. injection E' as <- _. exfalso. apply NI'. left. reflexivity.
  - destruct a' as [|y a'].
    + subst us. cbn [app] in E'. injection E' as -> _. exfalso. apply NI. left. reflexivity.
    + destruct us as [|u us]; [discriminate|]. cbn [app] in *. eapply (IH _ a' us).
      * congruence.
      * congruence.
      * intro I. apply NI'. right. exact I.
      Unshelve. intro I. apply NI. right. exact I.
Qed.
Lemma first_snoc us id t u : First (us ++ [u]) id t <-> First us id t \/ (~ In id (map snd us) /\ u = (t, id)).
Proof.
  split.
  - intros (a & b & E & NI). destruct (exists_last (l := (t, id) :: b)) as (b' & z & Eb); [discriminate|]. rewrite Eb, app_assoc in E.
    apply app_inj_tail in E. destruct E as [E1 E2]. subst us z. destruct b' as [|w b'].
    + cbn [app] in Eb. right. rewrite app_nil_r. split; [exact NI|congruence].
    + cbn [app] in Eb. injection Eb as <- _. left. exists a, b'. auto.
  - intros [(a & b & -> & NI)|[NI ->]].
    + exists a, (b ++ [u]). rewrite <- app_assoc. auto.
    + exists us, []. auto.
Qed.
