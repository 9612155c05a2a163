(** Proofs about the printed list: the order of the lines, the counts and the sum. *)
From Coq Require Import List Arith ZArith NArith Bool Sorted Permutation Lia.
From Verif Require Import Base Text_Model Text_Spec Word_Model Order_Model Order_Spec Order_Proofs1 Order_Thm Alex_Model Alex_Spec Alex_Proofs1.
Import ListNotations.
Local Open Scope res_scope.
Local Open Scope nat_scope.

Lemma each_ok {A B} (f : A -> res B) (g : A -> B) v : (forall x, In x v -> f x = Ok (g x)) -> each f v = Ok (map g v).
Proof.
  induction v as [|x v IH]; intros H; cbn [each map]; [reflexivity|]. rewrite H by (left; reflexivity). cbn [rbind].
  rewrite IH by (intros y Hy; apply H; right; exact Hy). reflexivity.
Qed.
Lemma nodup_app {A} (u v : list A) : NoDup (u ++ v) -> NoDup u /\ NoDup v.
Proof.
  induction u as [|x u IH]; cbn [app]; intros H; [split; [constructor|exact H]|]. inversion H; subst. destruct (IH H3) as [A1 A2].
  split; [|exact A2]. constructor; [|exact A1]. intros I; apply H2, in_or_app; left; exact I.
Qed.
Lemma pos_consistent v : consistent pos_cmp v.
Proof. unfold pos_cmp. split; intros; lia. Qed.

Fixpoint zsum (v : list Z) : Z := match v with [] => 0%Z | x :: r => (x + zsum r)%Z end.
Lemma zsum_perm u v : Permutation u v -> zsum u = zsum v.
Proof. induction 1; cbn; lia. Qed.

Section Printing.
Variable qsort : (nat -> nat -> Z) -> list nat -> list nat.
Hypothesis Hq : qsort_contract qsort.
Variable e : enc.
Variables (ws : list (list N)) (l : lex) (so : list nat).
Hypothesis Hinv : inv e ws ws l so.
Hypothesis Hlen : (Z.of_nat (length ws) < 2 ^ 31)%Z.

Definition num := x_num l.
Definition word_at (i : nat) : list N := nth i (firsts ws) [].
Definition cnt (i : nat) : Z := Z.of_nat (times ws (word_at i)).
Lemma cnt_a i : i < num -> nth i (x_a l) 0%Z = cnt i.
Proof. intros H. apply (i_a _ _ _ _ _ Hinv). exact H. Qed.
Lemma get_a i : i < num -> get (x_a l) i = Ok (cnt i).
Proof. intros H. rewrite (get_ok _ i 0%Z), cnt_a; [reflexivity|exact H|]. pose proof (i_la _ _ _ _ _ Hinv). pose proof (i_max _ _ _ _ _ Hinv). unfold num in H. lia. Qed.
Lemma cell_sort w : w < num -> cell (x_sort l) w = Ok (nth w so 0).
Proof. intros H. eapply cell_map; [apply Hinv|rewrite (Permutation_length (i_perm _ _ _ _ _ Hinv)); apply seq_length|exact H]. Qed.
Lemma cell_str i : i < num -> cell (x_str l) i = Ok (word_at i).
Proof. intros H. eapply cell_map; [apply Hinv|apply Hinv|exact H]. Qed.
Lemma so_length : length so = num.
Proof. rewrite (Permutation_length (i_perm _ _ _ _ _ Hinv)). apply seq_length. Qed.
Lemma so_in i : In i so <-> i < num.
Proof.
  split; intros H.
  - assert (X : In i (seq 0 num)) by (eapply Permutation_in; [apply Hinv|exact H]). apply in_seq in X. lia.
  - eapply Permutation_in; [apply Permutation_sym; apply Hinv|apply in_seq; unfold num in H; lia].
Qed.
Lemma so_bound w : w < num -> nth w so 0 < num.
Proof. intros H. apply so_in. apply nth_In. rewrite so_length. exact H. Qed.
Lemma cnt_pos i : i < num -> (1 <= cnt i)%Z.
Proof.
  intros H. unfold cnt, times. assert (In (word_at i) ws).
  { apply firsts_in. apply nth_In. rewrite (i_num _ _ _ _ _ Hinv). exact H. }
  apply (count_occ_In (list_eq_dec N.eq_dec)) in H0. lia.
Qed.
Lemma cnt_max i : (cnt i <= Z.of_nat (length ws))%Z.
Proof. unfold cnt, times. pose proof (count_occ_bound (list_eq_dec N.eq_dec) (word_at i) ws). lia. Qed.

(** ** Positions *)
Definition pos_of (i : nat) : nat := 
  (fix go (v : list nat) : nat := match v with [] => 0 | x :: r => if x =? i then 0 else S (go r) end) so.
Lemma pos_spec i : In i so -> pos_of i < length so /\ nth (pos_of i) so 0 = i /\ (forall p, p < pos_of i -> nth p so 0 <> i).
Proof.
  unfold pos_of. clear Hinv. induction so as [|x r IH]; intros I; [destruct I|]. destruct (Nat.eqb_spec x i) as [->|Ne].
  - cbn. split; [lia|]. split; [reflexivity|]. intros; lia.
  - destruct I as [E|I]; [contradiction|]. destruct (IH I) as (A & B & C). cbn [length nth]. split; [lia|]. split; [exact B|].
    intros [|p] Hp; [exact Ne|]. apply C. lia.
Qed.
Lemma position_ok i fuel w : In i so -> w <= pos_of i -> pos_of i - w < fuel -> position fuel (x_sort l) num i w = Ok (pos_of i).
Proof.
  intros I. destruct (pos_spec i I) as (A & B & C). rewrite so_length in A. revert w. induction fuel as [|f IH]; intros w Hw Hf; [lia|].
  cbn [position]. destruct (Nat.ltb_spec w num) as [L|G]; [|lia]. rewrite cell_sort by exact L. cbn [rbind].
  destruct (Nat.eqb_spec (nth w so 0) i) as [E|Ne].
  - f_equal. destruct (Nat.lt_ge_cases w (pos_of i)) as [X|X]; [exfalso; exact (C w X E)|lia].
  - assert (w <> pos_of i) by congruence. rewrite IH; [reflexivity|lia|lia].
Qed.

(** ** The lines *)
Definition precedes (i j : nat) : Prop := (cnt j < cnt i)%Z \/ (cnt i = cnt j /\ text_before e (word_at i) (word_at j)).
Definition desc (i j : nat) : Prop := (cnt j <= cnt i)%Z.

(** the maximal run of equal counts at the head *)
Fixpoint chunk (c : Z) (v : list nat) : list nat * list nat :=
  match v with
  | [] => ([], [])
  | x :: r => if (cnt x =? c)%Z then let '(a, b) := chunk c r in (x :: a, b) else ([], v)
  end.
Lemma chunk_app c v : fst (chunk c v) ++ snd (chunk c v) = v.
Proof. induction v as [|x r IH]; cbn [chunk]; [reflexivity|]. destruct (cnt x =? c)%Z; [|reflexivity]. destruct (chunk c r); cbn in *. congruence. Qed.
Lemma chunk_all c v : Forall (fun x => cnt x = c) (fst (chunk c v)).
Proof.
  induction v as [|x r IH]; cbn [chunk]; [constructor|]. destruct (Z.eqb_spec (cnt x) c); [|constructor]. destruct (chunk c r); cbn in *. constructor; assumption.
Qed.
Lemma chunk_stop c v : match snd (chunk c v) with [] => True | x :: _ => cnt x <> c end.
Proof.
  induction v as [|x r IH]; cbn [chunk]; [exact I|]. destruct (Z.eqb_spec (cnt x) c); [|exact n]. destruct (chunk c r); cbn in *. exact IH.
Qed.
Lemma run_end_ok done tail c h : forall v fuel m, length done + length m + length v = num -> (forall x, In x (done ++ m ++ v) -> x < num) ->
  length v < fuel -> nth (length done) (done ++ m ++ v ++ tail) 0 = h -> h < num -> cnt h = c ->
  run_end fuel (x_a l) (done ++ m ++ v ++ tail) num (length done) (length done + length m)
  = Ok (length done + length m + length (fst (chunk c v))).
Proof.
  induction v as [|x v IH]; intros fuel m L B F Hh Hn Hc; (destruct fuel as [|f]; [cbn in F; lia|]); cbn [run_end].
  - cbn [length] in L. destruct (Nat.ltb_spec (length done + length m) num); [lia|]. cbn. f_equal. lia.
  - cbn [length] in L. destruct (Nat.ltb_spec (length done + length m) num); [|lia].
    rewrite (get_ok _ (length done) 0) by (rewrite !app_length; cbn [length]; lia). rewrite Hh. cbn [rbind]. rewrite get_a by exact Hn. cbn [rbind].
    assert (G : get (done ++ m ++ (x :: v) ++ tail) (length done + length m) = Ok x).
    { rewrite <- app_length, app_assoc. cbn [app]. apply get_app. }
    rewrite G. cbn [rbind]. assert (Hx : x < num) by (apply B; rewrite !in_app_iff; cbn; auto). rewrite get_a by exact Hx. cbn [rbind].
    cbn [chunk]. rewrite (Z.eqb_sym (cnt x)), Hc. destruct (Z.eqb_spec c (cnt x)) as [E|Ne].
    + specialize (IH f (m ++ [x])). rewrite app_length in IH. cbn [length] in IH.
      replace (done ++ (m ++ [x]) ++ v ++ tail) with (done ++ m ++ (x :: v) ++ tail) in IH by (rewrite <- !app_assoc; reflexivity).
      replace (length done + length m + 1) with (length done + (length m + 1)) by lia. rewrite IH; try assumption; try lia.
      * f_equal. destruct (chunk c v); cbn. lia.
      * intros y Hy. apply B. rewrite !in_app_iff in *. cbn in *. tauto.
      * cbn in F. lia.
    + cbn. f_equal. lia.
Qed.

(** sorting one run *)
Definition sorted_chunk (v : list nat) : list nat := map (fun w => nth w so 0) (qsort pos_cmp (map pos_of v)).
Lemma sorted_perm v : (forall x, In x v -> x < num) -> Permutation (sorted_chunk v) v.
Proof.
  intros B. unfold sorted_chunk. destruct (Hq pos_cmp (map pos_of v) (pos_consistent _)) as [P _].
  rewrite (Permutation_map _ P), map_map. rewrite <- (map_id v) at 2. erewrite map_ext_in; [reflexivity|].
  intros x Hx. cbn. apply pos_spec. apply so_in. apply B; exact Hx.
Qed.
Lemma SS_map_ext {A B} (R : A -> A -> Prop) (Q : B -> B -> Prop) (f : A -> B) v : NoDup v ->
  (forall x y, In x v -> In y v -> x <> y -> R x y -> Q (f x) (f y)) -> StronglySorted R v -> StronglySorted Q (map f v).
Proof.
  intros ND H S. induction S as [|x v S IH F]; cbn [map]; constructor.
  - inversion ND; subst. apply IH; [assumption|]. intros a b Ha Hb. apply H; right; assumption.
  - inversion ND; subst. rewrite Forall_forall in *. intros y Hy. apply in_map_iff in Hy as (z & <- & Hz).
    apply H; [left; reflexivity|right; exact Hz|intros ->; contradiction|apply F; exact Hz].
Qed.
Lemma pos_inj x y : x < num -> y < num -> pos_of x = pos_of y -> x = y.
Proof.
  intros Hx Hy E. destruct (pos_spec x) as (_ & A & _); [apply so_in; exact Hx|]. destruct (pos_spec y) as (_ & B & _); [apply so_in; exact Hy|].
  rewrite E in A. congruence.
Qed.
Lemma NoDup_map_in {A B} (f : A -> B) v : (forall x y, In x v -> In y v -> f x = f y -> x = y) -> NoDup v -> NoDup (map f v).
Proof.
  intros H ND. induction ND as [|x v NI ND IH]; cbn; constructor.
  - intros X. apply in_map_iff in X as (y & E & Hy). apply NI. rewrite (H x y); [exact Hy|left; reflexivity|right; exact Hy|congruence].
  - apply IH. intros a b Ha Hb. apply H; right; assumption.
Qed.
Lemma sorted_text v : NoDup v -> (forall x, In x v -> x < num) ->
  StronglySorted (fun i j => text_before e (word_at i) (word_at j)) (sorted_chunk v).
Proof.
  intros ND B. unfold sorted_chunk. destruct (Hq pos_cmp (map pos_of v) (pos_consistent _)) as [P S].
  eapply SS_map_ext; [| |exact S].
  - eapply Permutation_NoDup; [apply Permutation_sym; exact P|]. apply NoDup_map_in; [|exact ND]. intros x y Hx Hy. apply pos_inj; auto.
  - intros p q Hp Hr Ne Hle. unfold pos_cmp in Hle. cbn.
    assert (Hqn : q < num).
    { eapply Permutation_in in Hr; [|exact P]. apply in_map_iff in Hr as (z & <- & Hz). destruct (pos_spec z) as (A & _); [apply so_in, B; exact Hz|]. rewrite so_length in A. exact A. }
    refine (SS_nth _ 0 so (i_ss _ _ _ _ _ Hinv) p q _ _); [lia|rewrite so_length; exact Hqn].
Qed.

Lemma SS_app {A} (R : A -> A -> Prop) u v : StronglySorted R u -> StronglySorted R v -> (forall x y, In x u -> In y v -> R x y) -> StronglySorted R (u ++ v).
Proof.
  intros Su Sv H. induction Su as [|x u Su IH F]; cbn [app]; [exact Sv|]. constructor.
  - apply IH. intros a b Ha Hb. apply H; [right; exact Ha|exact Hb].
  - apply Forall_app. split; [exact F|]. apply Forall_forall. intros y Hy. apply H; [left; reflexivity|exact Hy].
Qed.
Lemma SS_app_inv {A} (R : A -> A -> Prop) u v : StronglySorted R (u ++ v) -> StronglySorted R u /\ StronglySorted R v /\ (forall x y, In x u -> In y v -> R x y).
Proof.
  induction u as [|x u IH]; cbn [app]; intros S.
  - split; [constructor|]. split; [exact S|]. intros x y [].
  - inversion S; subst. destruct (IH H1) as (A1 & A2 & A3). apply Forall_app in H2 as [F1 F2]. split; [constructor; assumption|]. split; [exact A2|].
    intros a b [<-|Ha] Hb; [rewrite Forall_forall in F2; apply F2; exact Hb|apply A3; assumption].
Qed.

Lemma runs_ok tail : forall fuel todo done, length todo < fuel -> length done + length todo = num ->
  (forall x, In x (done ++ todo) -> x < num) -> NoDup todo -> StronglySorted desc todo -> StronglySorted precedes done ->
  (forall x y, In x done -> In y todo -> (cnt y < cnt x)%Z) ->
  exists b, runs qsort fuel l (done ++ todo ++ tail) (length done) = Ok (b ++ tail) /\ Permutation b (done ++ todo) /\ StronglySorted precedes b.
Proof.
  induction fuel as [|f IH]; intros todo done F L B ND Sd Sp Sep; [lia|]. cbn [runs]. fold num.
  destruct todo as [|h t].
  - cbn [length] in L. destruct (Nat.ltb_spec (length done) num); [lia|]. exists done. rewrite app_nil_r. auto.
  - destruct (Nat.ltb_spec (length done) num) as [_|]; [|cbn in L; lia].
    pose (c := cnt h). destruct (chunk c (h :: t)) as [u v] eqn:Ec.
    pose proof (chunk_app c (h :: t)) as Ea. pose proof (chunk_all c (h :: t)) as Al. pose proof (chunk_stop c (h :: t)) as St. rewrite Ec in Ea, Al, St. cbn [fst snd] in Ea, Al, St.
    assert (Hh : h < num) by (apply B; apply in_or_app; right; left; reflexivity).
    assert (Re : run_end (S num) (x_a l) (done ++ (h :: t) ++ tail) num (length done) (length done) = Ok (length done + length u)).
    { pose proof (run_end_ok done tail c h (h :: t) (S num) []) as R. cbn [app length] in R. rewrite Nat.add_0_r in R. cbn [app]. rewrite R; try assumption.
      - cbn [length Nat.add] in *. rewrite Ec. reflexivity.
      - cbn [length] in L. lia.
      - rewrite app_nth2 by lia. rewrite Nat.sub_diag. reflexivity.
      - reflexivity. }
    rewrite Re. cbn [rbind]. replace (length done + length u - length done) with (length u) by lia.
    assert (Lu : length u <> 0).
    { intros X. destruct u; [|discriminate]. cbn in Ea. subst v. unfold c in St. congruence. }
    rewrite <- Ea in *. 
    assert (E1 : firstn (length u) (skipn (length done) (done ++ (u ++ v) ++ tail)) = u).
    { rewrite skipn_app, skipn_all, Nat.sub_diag. cbn [app skipn]. rewrite <- app_assoc, firstn_app, Nat.sub_diag, firstn_all, firstn_O, app_nil_r. reflexivity. }
    rewrite E1.
    assert (Bu : forall x, In x u -> x < num) by (intros x Hx; apply B; rewrite !in_app_iff; auto).
    rewrite (each_ok _ pos_of).
    2:{ intros x Hx. assert (Ix : In x so) by (apply so_in, Bu, Hx). apply position_ok; [exact Ix|lia|]. destruct (pos_spec x Ix) as (A & _). rewrite so_length in A. lia. }
    cbn [rbind]. rewrite (each_ok _ (fun w => nth w so 0)).
    2:{ intros w Hw. apply cell_sort. destruct (Hq pos_cmp (map pos_of u) (pos_consistent _)) as [P _]. eapply Permutation_in in Hw; [|exact P].
        apply in_map_iff in Hw as (x & <- & Hx). destruct (pos_spec x) as (A & _); [apply so_in, Bu, Hx|]. rewrite so_length in A. exact A. }
    cbn [rbind]. fold (sorted_chunk u).
    assert (E2 : firstn (length done) (done ++ (u ++ v) ++ tail) = done).
    { rewrite firstn_app, Nat.sub_diag, firstn_all, firstn_O, app_nil_r. reflexivity. }
    assert (E3 : skipn (length done + length u) (done ++ (u ++ v) ++ tail) = v ++ tail).
    { rewrite <- app_length. replace (done ++ (u ++ v) ++ tail) with ((done ++ u) ++ v ++ tail) by (rewrite <- !app_assoc; reflexivity).
      rewrite skipn_app, skipn_all, Nat.sub_diag. reflexivity. }
    rewrite E2, E3. pose proof (sorted_perm u Bu) as Pu. pose proof (Permutation_length Pu) as Lp.
    assert (NDu : NoDup u) by (apply nodup_app in ND; apply ND).
    destruct (SS_app_inv _ _ _ Sd) as (Sd1 & Sd2 & Sd3).
    assert (Al' : forall x, In x (sorted_chunk u) -> cnt x = c).
    { intros x Hx. rewrite Forall_forall in Al. apply Al. eapply Permutation_in; eassumption. }
    assert (Sv : forall y, In y v -> (cnt y < c)%Z).
    { intros y Hy. destruct v as [|z v]; [destruct Hy|]. destruct u as [|x u]; [exfalso; apply Lu; reflexivity|].
      assert (Cx : cnt x = c) by (inversion Al; assumption).
      assert (Dz : (cnt z <= cnt x)%Z) by (apply Sd3; left; reflexivity).
      destruct Hy as [<-|Hy]; [lia|]. inversion Sd2; subst. rewrite Forall_forall in H2. specialize (H2 y Hy). unfold desc in H2. lia. }
    destruct (IH v (done ++ sorted_chunk u)) as (b & Eb & Pb & Sb).
    + rewrite app_length in F. lia.
    + rewrite !app_length in *. lia.
    + intros x Hx. apply B. rewrite !in_app_iff in *. destruct Hx as [[Hx|Hx]|Hx]; auto. right; left. eapply Permutation_in; eassumption.
    + apply nodup_app in ND. apply ND.
    + exact Sd2.
    + apply SS_app; [exact Sp| |].
      * eapply SS_ext; [|apply sorted_text; [exact NDu|exact Bu]]. intros x y Hx Hy T. right. split; [rewrite !Al' by assumption; reflexivity|exact T].
      * intros x y Hx Hy. left. apply Sep; [exact Hx|]. apply in_or_app; left. eapply Permutation_in; eassumption.
    + intros x y Hx Hy. apply in_app_or in Hx as [Hx|Hx].
      * apply Sep; [exact Hx|]. apply in_or_app; right; exact Hy.
      * rewrite (Al' x Hx). apply Sv; exact Hy.
    + exists b. rewrite <- !app_assoc in Eb. rewrite app_length, Lp in Eb. split; [exact Eb|]. split; [|exact Sb].
      rewrite Pb, <- app_assoc. apply Permutation_app_head. apply Permutation_app_tail. exact Pu.
Qed.

(** ** What is shown *)
Lemma often_ok thr : (thr <= 1)%Z -> forall k ind s, ind + k = num -> often k l thr ind s = Ok (s + k).
Proof.
  intros Ht. induction k as [|k IH]; intros ind s H; cbn [often]; [f_equal; lia|]. rewrite cell_sort by lia. cbn [rbind].
  assert (X : nth ind so 0 < num) by (apply so_bound; lia). rewrite get_a by exact X. cbn [rbind]. pose proof (cnt_pos _ X).
  destruct (Z.leb_spec thr (cnt (nth ind so 0))); [|lia]. rewrite IH by lia. f_equal. lia.
Qed.
Lemma lines_ok thr tail : (thr <= 1)%Z -> forall v done s, (forall x, In x v -> x < num) ->
  lines (length v) l (done ++ v ++ tail) thr (length done) (length done) s
  = Ok (map (fun p => (fst p + 1, cnt (snd p), word_at (snd p))) (combine (seq (length done) (length v)) v), (s + zsum (map cnt v))%Z).
Proof.
  intros Ht. induction v as [|x v IH]; intros done s B; cbn [length lines map zsum seq combine].
  - rewrite Z.add_0_r. reflexivity.
  - cbn [app]. rewrite get_app. cbn [rbind]. assert (Hx : x < num) by (apply B; left; reflexivity).
    rewrite cell_sort by exact Hx. cbn [rbind]. pose proof (so_bound x Hx) as X. rewrite get_a by exact X. cbn [rbind].
    pose proof (cnt_pos _ X). destruct (Z.leb_spec thr (cnt (nth x so 0))); [|lia]. rewrite get_a by exact Hx. cbn [rbind]. rewrite cell_str by exact Hx. cbn [rbind].
    specialize (IH (done ++ [x]) (s + cnt x)%Z). rewrite app_length in IH. cbn [length] in IH. rewrite <- app_assoc in IH. cbn [app] in IH.
    rewrite IH by (intros y Hy; apply B; right; exact Hy). cbn [rbind fst snd]. rewrite (Nat.add_1_r (length done)). rewrite Z.add_assoc. reflexivity.
Qed.

End Printing.

(** the occurrences of the distinct strings add up *)
Lemma times_cons w ws s : times (w :: ws) s = (if list_eq_dec N.eq_dec w s then 1 else 0) + times ws s.
Proof. unfold times. cbn. destruct (list_eq_dec N.eq_dec w s); lia. Qed.
Lemma zsum_ind w us : NoDup us -> zsum (map (fun s => if list_eq_dec N.eq_dec w s then 1 else 0)%Z us) = (if in_dec (list_eq_dec N.eq_dec) w us then 1 else 0)%Z.
Proof.
  induction 1 as [|x us NI ND IH]; [reflexivity|]. cbn [map zsum]. rewrite IH.
  destruct (in_dec (list_eq_dec N.eq_dec) w us) as [I|NI'], (in_dec (list_eq_dec N.eq_dec) w (x :: us)) as [J|NJ], (list_eq_dec N.eq_dec w x) as [->|Ne];
    try lia; try contradiction; try (exfalso; apply NJ; cbn; auto; fail).
  - destruct J as [->|J]; contradiction.
Qed.
Lemma zsum_add f g (us : list (list N)) : zsum (map (fun s => (f s + g s)%Z) us) = (zsum (map f us) + zsum (map g us))%Z.
Proof. induction us as [|x us IH]; cbn; lia. Qed.
Lemma times_sum us ws : NoDup us -> (forall w, In w ws -> In w us) -> zsum (map (fun s => Z.of_nat (times ws s)) us) = Z.of_nat (length ws).
Proof.
  intros ND. induction ws as [|w ws IH]; intros H.
  - cbn. clear. induction us; cbn; lia.
  - rewrite (map_ext _ (fun s => ((if list_eq_dec N.eq_dec w s then 1 else 0) + Z.of_nat (times ws s))%Z)).
    + rewrite zsum_add, zsum_ind by exact ND. rewrite IH by (intros x Hx; apply H; right; exact Hx).
      destruct (in_dec (list_eq_dec N.eq_dec) w us) as [|NI]; [cbn [length]; lia|]. exfalso; apply NI, H; left; reflexivity.
    + intros s. rewrite times_cons. destruct (list_eq_dec N.eq_dec w s); lia.
Qed.
