(** Proofs about the lexicon: the order of strings, searching, inserting and counting. *)
From Coq Require Import List Arith ZArith NArith Bool Sorted Permutation Lia.
From Verif Require Import Base Text_Model Text_Spec Text_Proofs1 Word_Model Order_Model Order_Proofs1 Alex_Model Alex_Spec.
Import ListNotations.
Local Open Scope res_scope.
Local Open Scope nat_scope.

(** * The order *)
Lemma lex_dictionary {A} (cmp : A -> A -> Z) (before : A -> A -> Prop) :
  (forall x y, cmp x y = 0%Z <-> x = y) -> (forall x y, (cmp x y < 0)%Z <-> before x y) ->
  forall a b, (Text_Proofs1.lex cmp a b < 0)%Z <-> dictionary before a b.
Proof.
  intros H0 Hb. induction a as [|x a IH]; intros [|y b]; cbn [Text_Proofs1.lex]; split; intros H.
  - lia.
  - inversion H.
  - constructor.
  - lia.
  - lia.
  - inversion H.
  - destruct (Z.eqb_spec (cmp x y) 0) as [E|N].
    + apply H0 in E as ->. apply d_next. apply IH; exact H.
    + apply d_here. apply Hb; exact H.
  - inversion H; subst.
    + destruct (Z.eqb_spec (cmp x y) 0) as [E|N].
      * apply Hb in H2. lia.
      * apply Hb; assumption.
    + assert (E : cmp y y = 0%Z) by (apply H0; reflexivity). rewrite E. cbn. apply IH; assumption.
Qed.
Lemma ncmp_lt x y : (ncmp x y < 0)%Z <-> (x < y)%N.
Proof. unfold ncmp. destruct (N.eqb_spec x y), (N.ltb_spec x y); lia. Qed.
Lemma ccmp_lt c d : (ccmp c d < 0)%Z <-> char_before c d.
Proof.
  unfold ccmp, char_before. destruct good_ncmp as (_ & _ & G3 & _).
  pose proof (lex_dictionary ncmp N.lt (fun x y => G3 x y I I) ncmp_lt c d) as L.
  destruct (Nat.eqb_spec (length c) (length d)) as [E|N].
  - rewrite L. split; [intros H; right; auto|intros [H|[_ H]]; [lia|exact H]].
  - destruct (Nat.ltb_spec (length c) (length d)) as [Lt|Ge]; split; intros H; try lia.
Qed.
Lemma chars_lt a b : (Text_Proofs1.lex ccmp a b < 0)%Z <-> dictionary char_before a b.
Proof. destruct good_ccmp as (_ & _ & G3 & _). apply lex_dictionary; [intros x y; apply G3; exact I|exact ccmp_lt]. Qed.

Lemma SS_nth {A} (R : A -> A -> Prop) d v : StronglySorted R v -> forall p q, p < q -> q < length v -> R (nth p v d) (nth q v d).
Proof.
  induction 1 as [|x v S IH F]; intros p q L H; [cbn in H; lia|]. destruct q as [|q]; [lia|]. cbn [length] in H. destruct p as [|p]; cbn [nth].
  - rewrite Forall_forall in F. apply F, nth_In. lia.
  - apply IH; lia.
Qed.

Section Enc.
Variable e : enc.
Lemma wf_holds s : well_formed e s -> holds (cstr s) s.
Proof. intros (cs & -> & F). split; [eapply chars_no0; eassumption|]. exists []. reflexivity. Qed.
Lemma compare s t : well_formed e s -> well_formed e t -> exists z, strcmp e (cstr s) (cstr t) = Ok z
  /\ (z = 0%Z <-> s = t) /\ ((z < 0)%Z <-> text_before e s t) /\ ((0 < z)%Z <-> text_before e t s).
Proof.
  intros Ws Wt. pose proof (wf_holds s Ws) as Hs. pose proof (wf_holds t Wt) as Ht.
  destruct Ws as (cs & Cs), Wt as (ds & Ct). exists (Text_Proofs1.lex ccmp cs ds).
  unfold strcmp. rewrite (strccmp_lex e _ _ s t cs ds) by (assumption || lia). split; [reflexivity|].
  destruct good_chars as (_ & G2 & G3 & _). split; [|split].
  - rewrite (G3 cs ds I I). destruct Cs as (-> & F1), Ct as (-> & F2). split; [congruence|apply (chars_inj e); assumption].
  - rewrite chars_lt. split.
    + intros D. exists cs, ds. auto.
    + intros (cs' & ds' & C1 & C2 & D). destruct Cs as (-> & F1), Ct as (-> & F2), C1 as (E1 & F3), C2 as (E2 & F4).
      rewrite (chars_inj e _ _ F1 F3 E1), (chars_inj e _ _ F2 F4 E2). exact D.
  - assert (X : (0 < Text_Proofs1.lex ccmp cs ds)%Z <-> (Text_Proofs1.lex ccmp ds cs < 0)%Z) by (rewrite (G2 cs ds I I); lia).
    rewrite X, chars_lt. split.
    + intros D. exists ds, cs. auto.
    + intros (cs' & ds' & C1 & C2 & D). destruct Cs as (-> & F1), Ct as (-> & F2), C1 as (E1 & F3), C2 as (E2 & F4).
      rewrite (chars_inj e _ _ F2 F3 E1), (chars_inj e _ _ F1 F4 E2). exact D.
Qed.
Lemma before_irr s : ~ text_before e s s.
Proof.
  intros (cs & ds & (E1 & F1) & (E2 & F2) & D). rewrite (chars_inj e cs ds F1 F2) in D by congruence. apply chars_lt in D.
  destruct good_chars as (_ & _ & G3 & _). assert (Text_Proofs1.lex ccmp ds ds = 0%Z) by (apply G3; auto). lia.
Qed.
Lemma before_trans s t u : text_before e s t -> text_before e t u -> text_before e s u.
Proof.
  intros (cs & ds & (E1 & F1) & (E2 & F2) & D) (ds' & es & (E3 & F3) & (E4 & F4) & D').
  rewrite <- (chars_inj e ds ds' F2 F3) in D' by congruence. exists cs, es. split; [split; assumption|]. split; [split; assumption|].
  apply chars_lt. apply chars_lt in D. apply chars_lt in D'. 
  apply (good_strict _ _ _ good_chars cs ds es I I I); lia.
Qed.
Lemma before_asym s t : text_before e s t -> ~ text_before e t s.
Proof. intros A B. exact (before_irr s (before_trans s t s A B)). Qed.

(** * Cells *)
Lemma cell_map {A} (l : list (option A)) n v i d : firstn n l = map Some v -> length v = n -> i < n -> cell l i = Ok (nth i v d).
Proof.
  intros E L H. unfold cell.
  assert (G : nth_error l i = Some (Some (nth i v d))).
  { rewrite <- (firstn_skipn n l), E, nth_error_app1 by (rewrite map_length; lia). apply map_nth_error. apply nth_error_nth'. lia. }
  unfold get. rewrite G. reflexivity.
Qed.

Record inv (ws cs : list (list N)) (l : Alex_Model.lex) (so : list nat) : Prop := {
  i_max : x_num l < x_max l;
  i_ls : length (x_str l) = x_max l;
  i_la : length (x_a l) = x_max l;
  i_lb : length (x_b l) = x_max l;
  i_lo : length (x_sort l) = x_max l;
  i_num : length (firsts ws) = x_num l;
  i_str : firstn (x_num l) (x_str l) = map Some (firsts ws);
  i_sort : firstn (x_num l) (x_sort l) = map Some so;
  i_perm : Permutation so (seq 0 (x_num l));
  i_ss : StronglySorted (fun i j => text_before e (nth i (firsts ws) []) (nth j (firsts ws) [])) so;
  i_wf : Forall (well_formed e) ws;
  i_a : forall i, i < x_num l -> nth i (x_a l) 0%Z = Z.of_nat (times cs (nth i (firsts ws) []));
  i_sub : incl cs ws;
  i_z : forall i, x_num l <= i -> nth i (x_a l) 0%Z = 0%Z
}.

(** * The distinct strings *)
Lemma firsts_in ws w : In w (firsts ws) <-> In w ws.
Proof.
  induction ws as [|x r IH]; cbn [firsts In]; [tauto|]. rewrite filter_In, IH. destruct (list_eq_dec N.eq_dec x w) as [->|Ne]; cbn; [tauto|].
  split; [intros [?|[? _]]; auto|intros [?|?]; auto].
Qed.
Lemma filter_nodup {A} (f : A -> bool) l : NoDup l -> NoDup (filter f l).
Proof. apply NoDup_filter. Qed.
Lemma firsts_nodup ws : NoDup (firsts ws).
Proof.
  induction ws as [|x r IH]; cbn [firsts]; constructor.
  - rewrite filter_In. intros [_ H]. destruct (list_eq_dec N.eq_dec x x); [discriminate|congruence].
  - apply NoDup_filter; exact IH.
Qed.
Lemma filter_none (x : list N) l : ~ In x l ->
  filter (fun y => negb (if list_eq_dec N.eq_dec x y then true else false)) l = l.
Proof.
  induction l as [|y l IH]; intros H; cbn [filter]; [reflexivity|]. destruct (list_eq_dec N.eq_dec x y) as [->|Ne]; cbn [negb].
  - exfalso; apply H; left; reflexivity.
  - rewrite IH; [reflexivity|]. intros I; apply H; right; exact I.
Qed.
Lemma firsts_snoc ws w : firsts (ws ++ [w]) = firsts ws ++ (if in_dec (list_eq_dec N.eq_dec) w ws then [] else [w]).
Proof.
  induction ws as [|x r IH]; [reflexivity|]. cbn [firsts app]. rewrite IH, filter_app. f_equal. f_equal.
  destruct (in_dec (list_eq_dec N.eq_dec) w r) as [I|NI], (in_dec (list_eq_dec N.eq_dec) w (x :: r)) as [I'|NI']; cbn [filter]; try reflexivity.
  - exfalso; apply NI'; right; exact I.
  - destruct I' as [->|I']; [|contradiction]. destruct (list_eq_dec N.eq_dec w w); [reflexivity|congruence].
  - destruct (list_eq_dec N.eq_dec x w) as [->|Ne]; [|reflexivity]. exfalso; apply NI'; left; reflexivity.
Qed.
Lemma times_snoc ws w s : times (ws ++ [w]) s = times ws s + (if list_eq_dec N.eq_dec w s then 1 else 0).
Proof. unfold times. rewrite count_occ_app. cbn. destruct (list_eq_dec N.eq_dec w s); lia. Qed.

(** * Searching *)
Section Search.
Variables (ws : list (list N)) (l : Alex_Model.lex) (so : list nat).
Hypothesis Hnum : length (firsts ws) = x_num l.
Hypothesis Hstr : firstn (x_num l) (x_str l) = map Some (firsts ws).
Hypothesis Hsort : firstn (x_num l) (x_sort l) = map Some so.
Hypothesis Hperm : Permutation so (seq 0 (x_num l)).
Hypothesis Hss : StronglySorted (fun i j => text_before e (nth i (firsts ws) []) (nth j (firsts ws) [])) so.
Hypothesis Hwf : Forall (well_formed e) ws.

Definition at_pos (p : nat) : list N := nth (nth p so 0) (firsts ws) [].
Lemma so_len : length so = x_num l.
Proof. rewrite (Permutation_length Hperm). apply seq_length. Qed.
Lemma so_lt p : p < x_num l -> nth p so 0 < x_num l.
Proof. intros H. assert (I : In (nth p so 0) (seq 0 (x_num l))) by (eapply Permutation_in; [exact Hperm|apply nth_In; rewrite so_len; exact H]). apply in_seq in I. lia. Qed.
Lemma at_lt p q : p < q -> q < x_num l -> text_before e (at_pos p) (at_pos q).
Proof. intros L H. unfold at_pos. apply (SS_nth _ 0 so Hss p q L). rewrite so_len. exact H. Qed.
Lemma at_wf p : p < x_num l -> well_formed e (at_pos p).
Proof.
  intros H. rewrite Forall_forall in Hwf. apply Hwf. apply firsts_in. apply nth_In. rewrite Hnum. apply so_lt; exact H.
Qed.
Lemma search_ok goal : well_formed e goal -> forall fuel low high, (0 <= low <= high)%Z -> (high < Z.of_nat (x_num l))%Z ->
  (high - low < Z.of_nat fuel)%Z ->
  (forall p, p < x_num l -> (Z.of_nat p < low)%Z -> text_before e (at_pos p) goal) ->
  (forall p, p < x_num l -> (high < Z.of_nat p)%Z -> text_before e goal (at_pos p)) ->
  exists r, search_loop fuel e l goal low high = Ok r /\
    match r with
    | inl i => i < x_num l /\ at_pos i = goal
    | inr i => i <= x_num l /\ (forall p, p < i -> text_before e (at_pos p) goal)
               /\ (forall p, i <= p -> p < x_num l -> text_before e goal (at_pos p))
    end.
Proof.
  intros Wg. induction fuel as [|f IH]; intros low high B H F L U; [lia|]. cbn [search_loop]. cbv zeta.
  set (mid := Z.quot (low + high) 2).
  assert (Hm : (low <= mid <= high)%Z).
  { unfold mid. rewrite Z.quot_div_nonneg by lia. split; [apply Z.div_le_lower_bound; lia|apply Z.div_le_upper_bound; lia]. }
  assert (Hn : Z.to_nat mid < x_num l) by lia.
  rewrite (cell_map _ _ so _ 0 Hsort so_len Hn). cbn [rbind].
  rewrite (cell_map _ _ (firsts ws) _ [] Hstr Hnum (so_lt _ Hn)). cbn [rbind].
  fold (at_pos (Z.to_nat mid)). destruct (compare goal (at_pos (Z.to_nat mid)) Wg (at_wf _ Hn)) as (z & -> & C0 & C1 & C2). cbn [rbind].
  destruct (Z.eqb_spec z 0) as [E|N0].
  - eexists. split; [reflexivity|]. cbn. split; [exact Hn|]. symmetry. apply C0; exact E.
  - destruct (Z.ltb_spec z 0) as [Lt|Ge].
    + apply C1 in Lt. destruct (Z.leb_spec low (mid - 1)) as [Le|Gt].
      * apply IH; [lia|lia|lia|exact L|]. intros p Hp Hq. destruct (Nat.eq_dec p (Z.to_nat mid)) as [->|Np]; [exact Lt|].
        apply (before_trans _ _ _ Lt). apply at_lt; lia.
      * eexists. split; [reflexivity|]. cbn. split; [lia|]. split.
        -- intros p Hp. apply L; lia.
        -- intros p Hp Hq. destruct (Nat.eq_dec p (Z.to_nat mid)) as [->|Np]; [exact Lt|]. apply (before_trans _ _ _ Lt). apply at_lt; lia.
    + assert (Gt : text_before e (at_pos (Z.to_nat mid)) goal) by (apply C2; lia). destruct (Z.leb_spec (mid + 1) high) as [Le|Gt'].
      * apply IH; [lia|lia|lia| |exact U]. intros p Hp Hq. destruct (Nat.eq_dec p (Z.to_nat mid)) as [->|Np]; [exact Gt|].
        refine (before_trans _ _ _ _ Gt). apply at_lt; lia.
      * eexists. split; [reflexivity|]. cbn. split; [lia|]. split.
        -- intros p Hp. destruct (Nat.eq_dec p (Z.to_nat mid)) as [->|Np]; [exact Gt|]. refine (before_trans _ _ _ _ Gt). apply at_lt; lia.
        -- intros p Hp Hq. apply U; lia.
Qed.
Lemma index_ok goal : well_formed e goal -> exists r, index_search e l goal = Ok r /\
    match r with
    | inl i => i < x_num l /\ at_pos i = goal
    | inr i => i <= x_num l /\ (forall p, p < i -> text_before e (at_pos p) goal)
               /\ (forall p, i <= p -> p < x_num l -> text_before e goal (at_pos p))
    end.
Proof.
  intros Wg. unfold index_search. cbv zeta. destruct (Z.ltb_spec (Z.of_nat (x_num l) - 1) 0) as [Lt|Ge].
  - eexists. split; [reflexivity|]. cbn. split; [lia|]. split; intros; lia.
  - apply search_ok; [exact Wg|lia|lia|lia| |]; intros; lia.
Qed.
(** whether the string is there *)
Lemma at_in goal i : i < x_num l -> at_pos i = goal -> In goal ws.
Proof. intros H <-. apply firsts_in. apply nth_In. rewrite Hnum. apply so_lt; exact H. Qed.
Lemma in_at goal : In goal ws -> exists p, p < x_num l /\ at_pos p = goal.
Proof.
  intros I. apply firsts_in in I. destruct (In_nth _ _ [] I) as (i & Hi & E). rewrite Hnum in Hi.
  assert (J : In i so) by (eapply Permutation_in; [apply Permutation_sym; exact Hperm|apply in_seq; lia]).
  destruct (In_nth _ _ 0 J) as (p & Hp & E'). rewrite so_len in Hp. exists p. split; [exact Hp|]. unfold at_pos. rewrite E'. exact E.
Qed.
Lemma not_in_at goal i : i <= x_num l -> (forall p, p < i -> text_before e (at_pos p) goal) ->
  (forall p, i <= p -> p < x_num l -> text_before e goal (at_pos p)) -> ~ In goal ws.
Proof.
  intros Hi A B I. destruct (in_at goal I) as (p & Hp & E). destruct (Nat.lt_ge_cases p i) as [Lt|Ge].
  - specialize (A p Lt). rewrite E in A. exact (before_irr _ A).
  - specialize (B p Ge Hp). rewrite E in B. exact (before_irr _ B).
Qed.
End Search.

(** * Inserting *)
Lemma expand_ok ws cs l so : inv ws cs l so -> inv ws cs (expand l) so /\ x_num (expand l) = x_num l /\ x_num l + 1 < x_max (expand l).
Proof.
  intros []. unfold expand. destruct (Nat.leb_spec (x_max l) (x_num l + 1)) as [Le|Gt].
  - cbn. split; [|split; [reflexivity|lia]]. constructor; cbn; rewrite ?app_length, ?repeat_length; try assumption; try lia.
    + rewrite firstn_app. replace (x_num l - length (x_str l)) with 0 by lia. rewrite firstn_O, app_nil_r. assumption.
    + rewrite firstn_app. replace (x_num l - length (x_sort l)) with 0 by lia. rewrite firstn_O, app_nil_r. assumption.
    + intros i Hi. rewrite app_nth1 by lia. apply i_a0; exact Hi.
    + intros i Hi. destruct (Nat.lt_ge_cases i (length (x_a l))) as [Lt|Ge].
      * rewrite app_nth1 by exact Lt. apply i_z0; exact Hi.
      * rewrite app_nth2 by exact Ge. destruct (Nat.lt_ge_cases (i - length (x_a l)) (x_max l)) as [X|X].
        -- apply nth_repeat.
        -- apply nth_overflow. rewrite repeat_length. exact X.
  - split; [constructor; assumption|]. split; [reflexivity|lia].
Qed.
Lemma get_app {A} (p : list A) x r : get (p ++ x :: r) (length p) = Ok x.
Proof. unfold get. rewrite nth_error_app2 by lia. rewrite Nat.sub_diag. reflexivity. Qed.
Lemma set_app {A} (p : list A) x r v : set (p ++ x :: r) (length p) v = Ok (p ++ v :: r).
Proof.
  induction p as [|y p IH]; cbn [app length set]; [reflexivity|]. rewrite IH. reflexivity.
Qed.
Lemma shift_set v q : forall p c r,
  (let* s := shift (length q) (p ++ q ++ c :: r) (length p + length q) in set s (length p) v) = Ok (p ++ v :: q ++ r).
Proof.
  induction q as [|z q IH] using rev_ind; intros p c r.
  - cbn [shift length app rbind]. apply set_app.
  - rewrite app_length, Nat.add_comm. cbn [length Nat.add shift].
    replace (length p + S (length q) - 1) with (length p + length q) by lia.
    assert (E1 : p ++ (q ++ [z]) ++ c :: r = (p ++ q) ++ z :: c :: r) by (rewrite <- !app_assoc; reflexivity).
    rewrite E1. rewrite <- (app_length p q), get_app. cbn [rbind].
    assert (E2 : (p ++ q) ++ z :: c :: r = (p ++ q ++ [z]) ++ c :: r) by (rewrite <- !app_assoc; reflexivity). rewrite E2.
    replace (length p + S (length q)) with (length (p ++ q ++ [z])) by (rewrite !app_length; cbn; lia).
    rewrite set_app. cbn [rbind].
    replace ((p ++ q ++ [z]) ++ z :: r) with (p ++ q ++ z :: z :: r) by (rewrite <- !app_assoc; reflexivity).
    rewrite app_length. rewrite (IH p z (z :: r)). rewrite <- !app_assoc. reflexivity.
Qed.

Lemma set_firstn {A} (v : list A) i x v' : set v i x = Ok v' -> firstn i v' = firstn i v.
Proof.
  revert i v'. induction v as [|y v IH]; intros i v' E; cbn [set] in E; [discriminate|]. destruct i as [|i]; [reflexivity|].
  destruct (set v i x) as [r| | |] eqn:Er; cbn [rbind] in E; try discriminate. injection E as <-. cbn [firstn]. f_equal. apply IH; exact Er.
Qed.
Lemma nth_firstn {A} (v : list A) i n d : i < n -> nth i (firstn n v) d = nth i v d.
Proof.
  revert i v. induction n as [|n IH]; intros i v H; [lia|]. destruct v as [|y v]; [destruct i; reflexivity|]. destruct i as [|i]; [reflexivity|].
  cbn [firstn nth]. apply IH; lia.
Qed.
Lemma firsts_pos ws w i : i < length (firsts ws) -> nth i (firsts (ws ++ [w])) [] = nth i (firsts ws) [].
Proof. intros H. rewrite firsts_snoc. apply app_nth1. exact H. Qed.

Lemma SS_mid {A} (R : A -> A -> Prop) p q x : StronglySorted R (p ++ q) -> Forall (fun y => R y x) p -> Forall (R x) q ->
  StronglySorted R (p ++ x :: q).
Proof.
  induction p as [|y p IH]; cbn [app]; intros S Fp Fq.
  - constructor; assumption.
  - inversion S; subst. inversion Fp; subst. constructor; [apply IH; assumption|]. apply Forall_app in H2 as [A1 A2]. apply Forall_app. split; [exact A1|].
    constructor; assumption.
Qed.
Lemma SS_ext {A} (R Q : A -> A -> Prop) v : (forall x y, In x v -> In y v -> R x y -> Q x y) -> StronglySorted R v -> StronglySorted Q v.
Proof.
  intros H S. induction S as [|x v S IH F]; constructor.
  - apply IH. intros a b Ha Hb. apply H; right; assumption.
  - rewrite Forall_forall in *. intros y Hy. apply H; [left; reflexivity|right; exact Hy|apply F; exact Hy].
Qed.

Lemma insert_ok ws cs l so w : inv ws cs l so -> well_formed e w ->
  exists l' so' i, lex_insert e l w = Ok (l', i) /\ inv (ws ++ [w]) cs l' so' /\ i < length (firsts (ws ++ [w]))
    /\ nth i (firsts (ws ++ [w])) [] = w.
Proof.
  intros H0 W. destruct (expand_ok ws cs l so H0) as (H & En & Em). unfold lex_insert. cbv zeta.
  set (l1 := expand l) in *. clearbody l1. rewrite <- En in Em. clear En H0 l. rename l1 into l. destruct H.
  destruct (index_ok ws l so i_num0 i_str0 i_sort0 i_perm0 i_ss0 i_wf0 w W) as (r & -> & R). cbn [rbind].
  assert (Ls : length so = x_num l) by (apply so_len; assumption).
  destruct r as [ind|ind].
  - destruct R as [Hi E]. rewrite (cell_map _ _ so _ 0 i_sort0 Ls Hi). cbn [rbind]. exists l, so, (nth ind so 0). split; [reflexivity|].
    assert (I : In w ws) by (eapply at_in; eassumption).
    assert (F : firsts (ws ++ [w]) = firsts ws).
    { rewrite firsts_snoc. destruct (in_dec (list_eq_dec N.eq_dec) w ws); [apply app_nil_r|contradiction]. }
    split; [|rewrite F; split; [rewrite i_num0; eapply so_lt; eassumption|exact E]].
    constructor; rewrite ?F; try assumption.
    + apply Forall_app; split; [assumption|]. constructor; [exact W|constructor].
    + intros x Hx. apply in_or_app. left. apply i_sub0; exact Hx.
  - destruct R as (Hi & A & B).
    assert (NI : ~ In w ws) by (eapply not_in_at; eassumption).
    assert (F : firsts (ws ++ [w]) = firsts ws ++ [w]).
    { rewrite firsts_snoc. destruct (in_dec (list_eq_dec N.eq_dec) w ws); [contradiction|reflexivity]. }
    (* the order array *)
    assert (Dec : exists c r, x_sort l = map Some (firstn ind so) ++ map Some (skipn ind so) ++ c :: r).
    { destruct (skipn (x_num l) (x_sort l)) as [|c r] eqn:Es.
      - exfalso. assert (X : length (skipn (x_num l) (x_sort l)) = x_max l - x_num l) by (rewrite skipn_length; lia). rewrite Es in X. cbn in X. lia.
      - exists c, r. rewrite app_assoc, <- map_app, firstn_skipn, <- i_sort0, <- Es. symmetry. apply firstn_skipn. }
    destruct Dec as (c & r & Dec).
    assert (Lp : length (map Some (firstn ind so)) = ind) by (rewrite map_length, firstn_length; lia).
    assert (Lq : length (map Some (skipn ind so)) = x_num l - ind) by (rewrite map_length, skipn_length; lia).
    pose proof (shift_set (Some (x_num l)) (map Some (skipn ind so)) (map Some (firstn ind so)) c r) as Sh.
    rewrite <- Dec, Lp, Lq in Sh. replace (ind + (x_num l - ind)) with (x_num l) in Sh by lia.
    destruct (shift (x_num l - ind) (x_sort l) (x_num l)) as [s| | |]; cbn [rbind] in Sh |- *; try discriminate. rewrite Sh. cbn [rbind].
    destruct (set_ok (x_str l) (x_num l) (Some w) None) as (str & Est & Lst & Nst & _); [lia|].
    rewrite Est. cbn [rbind].
    exists {| x_max := x_max l; x_num := x_num l + 1; x_str := str; x_a := x_a l; x_b := x_b l;
              x_sort := map Some (firstn ind so) ++ Some (x_num l) :: map Some (skipn ind so) ++ r |},
      (firstn ind so ++ x_num l :: skipn ind so), (x_num l).
    split; [reflexivity|].
    split; [|rewrite F, app_length, i_num0; cbn; split; [lia|rewrite app_nth2 by lia; rewrite i_num0, Nat.sub_diag; reflexivity]].
    assert (Lt : forall j, In j so -> j < x_num l).
    { intros j Hj. assert (In j (seq 0 (x_num l))) as X by (eapply Permutation_in; eassumption). apply in_seq in X. lia. }
    assert (Fn : forall j, j < x_num l -> nth j (firsts ws ++ [w]) [] = nth j (firsts ws) []) by (intros; apply app_nth1; lia).
    assert (Fw : nth (x_num l) (firsts ws ++ [w]) [] = w) by (rewrite app_nth2 by lia; rewrite i_num0, Nat.sub_diag; reflexivity).
    constructor; cbn; rewrite ?F; try assumption.
    + lia.
    + assert (X : length (x_sort l) = length (map Some (firstn ind so)) + (length (map Some (skipn ind so)) + S (length r))) by (rewrite Dec, !app_length; reflexivity).
      rewrite app_length; cbn [length]; rewrite app_length. lia.
    + rewrite app_length; cbn; lia.
    + replace (x_num l + 1) with (S (x_num l)) by lia. rewrite map_app. cbn [map].
      assert (Hs : x_num l < length str) by lia.
      rewrite <- (firstn_skipn (x_num l) str) at 1. rewrite (set_firstn _ _ _ _ Est), i_str0.
      destruct (skipn (x_num l) str) as [|y t] eqn:Es.
      * exfalso. assert (X : length (skipn (x_num l) str) = length str - x_num l) by apply skipn_length. rewrite Es in X. cbn in X. lia.
      * rewrite firstn_app, firstn_all2 by (rewrite map_length; lia). f_equal. rewrite map_length, i_num0. replace (S (x_num l) - x_num l) with 1 by lia.
        cbn [firstn]. f_equal. rewrite <- Nst.
        rewrite <- (firstn_skipn (x_num l) str), Es. rewrite app_nth2; rewrite firstn_length_le by lia; [|lia]. rewrite Nat.sub_diag. reflexivity.
    + rewrite map_app. cbn [map]. replace (map Some (firstn ind so) ++ Some (x_num l) :: map Some (skipn ind so) ++ r)
        with ((map Some (firstn ind so) ++ Some (x_num l) :: map Some (skipn ind so)) ++ r) by (rewrite <- app_assoc; reflexivity).
      rewrite firstn_app. rewrite firstn_all2 by (rewrite app_length; cbn [length]; lia).
      match goal with |- _ ++ firstn ?k r = _ => replace k with 0 by (rewrite app_length; cbn [length]; lia) end.
      rewrite firstn_O, app_nil_r. reflexivity.
    + rewrite <- Permutation_middle. rewrite firstn_skipn, Nat.add_1_r, seq_S. cbn. rewrite Permutation_app_comm. cbn. constructor. assumption.
    + apply SS_mid.
      * rewrite firstn_skipn. eapply SS_ext; [|exact i_ss0]. cbn. intros x y Hx Hy. rewrite !Fn by (apply Lt; assumption). auto.
      * apply Forall_forall. intros j Hj. rewrite Fw. destruct (In_nth _ _ 0 Hj) as (p & Hp & Ep). rewrite firstn_length in Hp.
        rewrite Fn by (apply Lt; rewrite <- (firstn_skipn ind so); apply in_or_app; left; exact Hj).
        rewrite nth_firstn in Ep by lia. rewrite <- Ep. apply A. lia.
      * apply Forall_forall. intros j Hj. rewrite Fw. destruct (In_nth _ _ 0 Hj) as (p & Hp & Ep). rewrite skipn_length in Hp.
        rewrite Fn by (apply Lt; rewrite <- (firstn_skipn ind so); apply in_or_app; right; exact Hj).
        specialize (B (ind + p)). unfold at_pos in B. rewrite <- Ep.
        replace (nth p (skipn ind so) 0) with (nth (ind + p) so 0); [apply B; lia|]. rewrite <- (firstn_skipn ind so) at 1. rewrite app_nth2; rewrite firstn_length_le by lia; [|lia]. f_equal. lia.
    + apply Forall_app; split; [assumption|]. constructor; [exact W|constructor].
    + intros i Hlt. destruct (Nat.eq_dec i (x_num l)) as [->|Ne].
      * rewrite Fw, i_z0 by lia. unfold times. rewrite (proj1 (count_occ_not_In (list_eq_dec N.eq_dec) cs w)); [reflexivity|]. intros X; apply NI, i_sub0, X.
      * rewrite Fn by lia. apply i_a0; lia.
    + intros x Hx. apply in_or_app. left. apply i_sub0; exact Hx.
    + intros i Hge. apply i_z0; lia.
Qed.

Lemma count_ok ws l so w : inv ws ws l so -> well_formed e w -> exists l' so', lex_count e l w = Ok l' /\ inv (ws ++ [w]) (ws ++ [w]) l' so'.
Proof.
  intros H W. destruct (insert_ok ws ws l so w H W) as (l' & so' & i & E & Iv & Hi & Ew). unfold lex_count. rewrite E. cbn [rbind].
  destruct Iv. rewrite i_num0 in Hi. rewrite (get_ok _ i 0%Z) by lia. cbn [rbind].
  destruct (set_ok (x_a l') i (nth i (x_a l') 0 + 1)%Z 0%Z) as (a & Ea & La & Ni & Na); [lia|]. rewrite Ea. cbn [rbind].
  eexists _, so'. split; [reflexivity|]. constructor; cbn; try assumption; try lia.
  - intros j Hj. rewrite times_snoc. destruct (Nat.eq_dec j i) as [->|Ne].
    + rewrite Ni, i_a0 by lia. rewrite Ew. destruct (list_eq_dec N.eq_dec w w); [lia|congruence].
    + rewrite Na, i_a0 by lia. destruct (list_eq_dec N.eq_dec w (nth j (firsts (ws ++ [w])) [])) as [X|]; [|f_equal; lia].
      exfalso. apply Ne. apply (proj1 (NoDup_nth (firsts (ws ++ [w])) []) (firsts_nodup _)); [lia|lia|congruence].
  - apply incl_refl.
  - intros j Hj. destruct (Nat.lt_ge_cases j (x_max l')) as [Lt|Ge]; [|apply nth_overflow; lia].
    rewrite Na by lia. apply i_z0; exact Hj.
Qed.
Lemma count_all_ok rest : forall ws l so, inv ws ws l so -> Forall (well_formed e) rest ->
  exists l' so', lex_count_all e l rest = Ok l' /\ inv (ws ++ rest) (ws ++ rest) l' so'.
Proof.
  induction rest as [|w r IH]; intros ws l so H W; cbn [lex_count_all].
  - exists l, so. rewrite app_nil_r. auto.
  - inversion W; subst. destruct (count_ok ws l so w H H2) as (l1 & so1 & E & H1). rewrite E. cbn [rbind].
    destruct (IH _ _ _ H1 H3) as (l' & so' & E' & H'). rewrite <- app_assoc in H'. exists l', so'. auto.
Qed.
Lemma init_inv size : 0 < size -> inv [] [] (lex_init size) [].
Proof.
  intros H. constructor; cbn; rewrite ?repeat_length; try reflexivity; try lia; try constructor; try (intros; lia).
  - intros x [].
  - intros i _. destruct (Nat.lt_ge_cases i size) as [L|G]; [apply nth_repeat|apply nth_overflow; rewrite repeat_length; exact G].
Qed.
End Enc.
