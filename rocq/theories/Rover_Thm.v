From Coq Require Import List Arith ZArith NArith QArith Qminmax Bool Lia Lqa.
From Verif Require Import Base Text_Model Text_Spec Word_Model Word_Spec Word_Thm Rover_Model Rover_Spec Rover_Proofs.
Import ListNotations.

Lemma score_spec : forall s r arcs l t x total, rule_of (s_meth s) = Some r -> entry_ok arcs l t x ->
  (total == conf_sum l)%Q -> (r = ShareOfConfidence -> ~ (conf_sum l == 0)%Q) ->
  exists q, score s (List.length l) total x = Ok (Fin q) /\ (q == vote_score r (s_alpha s) l t)%Q.
Proof.
  intros s r arcs l t x total R (_ & O & S & M & _) T NZ. unfold score, vote_score, confidence, count, qn. rewrite O.
  destruct (s_meth s); try discriminate; injection R as <-; eexists.
  1,2,3,4,5: split; [reflexivity|]; try rewrite S; try rewrite M; reflexivity.
  assert (X : Qeq_bool total 0 = false).
  { destruct (Qeq_bool total 0) eqn:X; [|reflexivity]. apply Qeq_bool_iff in X. exfalso. apply (NZ eq_refl). rewrite <- T. exact X. }
  rewrite X. split; [reflexivity|]. rewrite S, T. unfold Qdiv. ring.
Qed.

Section Vote.
Variables (e : enc) (s : sel) (to : nat) (arcs : list varc) (l : list ballot) (r : rule).
Hypothesis CAST : Forall2 (casts e) arcs l.
Hypothesis LINEAR : forall a, In a arcs -> fst a = to.
Hypothesis SOME : arcs <> [].

Lemma table : match tally e to arcs [] 0%Q with
  | Ok (ents, total) => Forall2 (entry_ok arcs l) (firsts (map b_text l)) ents /\ (total == conf_sum l)%Q /\
      (List.length (firsts (map b_text l)) <= 49)%nat
  | Exit => (49 < List.length (firsts (map b_text l)))%nat
  | _ => False
  end.
Proof.
  apply (tally_spec e to arcs l [] [] [] 0%Q); [constructor|exact CAST|exact LINEAR|constructor|reflexivity|cbn; lia].
Qed.

Lemma start : print_linear e s arcs =
  rbind (tally e to arcs [] 0%Q) (fun '(ents, total) =>
    rbind (choose s (List.length arcs) total ents 0 None (Fin (-1))) (fun best =>
    match best with
    | None => Exit
    | Some b =>
      if s_putat s then Ok (Putative (map a_word arcs))
      else if s_ctm s then
        match s_meth s with
        | M_oracle => Ok (Alternatives (map line_of ents))
        | M_putat | M_null => Exit
        | _ =>
          match nth_error ents b with
          | None => Undef
          | Some x =>
            rbind (equal_word e (Some (v_word (n_word x))) (Some (v_word (s_null s)))) (fun z =>
            Ok (if (z =? 0)%Z then Nothing else Line (line_of x)))
          end
        end
      else Ok Nothing
    end)).
Proof.
  clear CAST. unfold print_linear. destruct arcs as [|[t w] rest]; [contradiction|]. specialize (LINEAR (t, w) (or_introl eq_refl)). cbn in LINEAR. subst t. reflexivity.
Qed.

Lemma win : forall ents total, Forall2 (entry_ok arcs l) (firsts (map b_text l)) ents -> (total == conf_sum l)%Q ->
  rule_of (s_meth s) = Some r -> (r = ShareOfConfidence -> ~ (conf_sum l == 0)%Q) ->
  let sc := vote_score r (s_alpha s) l in
  exists best, choose s (List.length arcs) total ents 0 None (Fin (-1)) = Ok best /\
    ((best = None /\ forall b, In b l -> (sc (b_text b) <= -1)%Q) \/
     (exists i t x, best = Some i /\ nth_error ents i = Some x /\ entry_ok arcs l t x /\ In t (map b_text l) /\
        (-1 < sc t)%Q /\ wins sc l t)).
Proof.
  intros ents total H T R NZ sc. rewrite (Forall2_length _ _ _ CAST).
  destruct (choose_spec s (List.length l) total ents (map sc (firsts (map b_text l)))) with (i := 0%nat) (best := @None nat) (top := (-1)%Q) as (best & E & D).
  - clear - H T R NZ. induction H as [|t x ts ents EX H IH]; [constructor|]. cbn [map]. constructor; [|exact IH].
    destruct (score_spec s r arcs l t x total R EX T NZ) as (q & E & Q). exists q. auto.
  - exists best. split; [exact E|]. destruct D as [(-> & A)|(a & q & b & ES & -> & G & A & B)].
    + left. split; [reflexivity|]. intros b I. apply A. apply in_map, in_firsts, in_map, I.
    + right. apply map_eq_app in ES. destruct ES as (ta & tb & EF & <- & ES). destruct tb as [|t tb]; [discriminate|]. injection ES as <- <-.
      rewrite EF in H. apply Forall2_app_inv_l in H. destruct H as (ea & eb & HA & HB & ->). inversion HB as [|? x ? eb' EX HB']; subst.
      assert (IT : In t (map b_text l)) by (apply in_firsts; rewrite EF; apply in_elt).
      exists (List.length (map sc ta)), t, x. cbn [plus]. split; [reflexivity|].
      split; [rewrite map_length, (Forall2_length _ _ _ HA), nth_error_app2, Nat.sub_diag by lia; reflexivity|].
      split; [exact EX|]. split; [exact IT|]. split; [exact G|].
      destruct (first_proposal l t IT) as (pre & y & post & EL & TY & NP). exists pre, y, post.
      split; [exact EL|]. split; [exact TY|]. split.
      * intros z I. apply A. apply in_map.
        assert (EP : exists rest, firsts (map b_text l) = firsts (map b_text pre) ++ t :: rest).
        { rewrite EL, map_app. cbn [map]. rewrite TY. change (t :: map b_text post) with ([t] ++ map b_text post). rewrite app_assoc.
          destruct (firsts_prefix (map b_text pre ++ [t]) (map b_text post)) as [rest ->]. rewrite firsts_snoc.
          destruct (in_dec (list_eq_dec N.eq_dec) t (firsts (map b_text pre))) as [X|X]; [apply (proj1 (in_firsts _ _)) in X; contradiction|].
          exists rest. rewrite <- app_assoc. reflexivity. }
        destruct EP as [rest EP]. rewrite EF in EP.
        assert (NT : ~ In t ta).
        { intro X. pose proof (firsts_nodup (map b_text l)) as ND. rewrite EF in ND. apply NoDup_remove_2 in ND. apply ND. apply in_or_app. left. exact X. }
        assert (NT2 : ~ In t (firsts (map b_text pre))) by (intro X; apply (proj1 (in_firsts _ _)) in X; contradiction).
        assert (EA : ta = firsts (map b_text pre)).
        { revert EP NT NT2. generalize (firsts (map b_text pre)). clear. revert tb rest. induction ta as [|u ta IH]; intros tb rest [|v m] EP N1 N2; [reflexivity| | |].
          - exfalso. injection EP as -> _. apply N2. left. reflexivity.
          - exfalso. injection EP as -> _. apply N1. left. reflexivity.
          - injection EP as -> EP. f_equal. apply (IH tb rest m EP); intro X; [apply N1|apply N2]; right; exact X. }
        rewrite EA. apply in_firsts, in_map, I.
      * intros z I. assert (IZ : In (b_text z) (firsts (map b_text l))) by (apply in_firsts, in_map, I).
        rewrite EF in IZ. apply in_app_or in IZ. destruct IZ as [X|[X|X]].
        -- apply Qlt_le_weak, A, in_map, X.
        -- rewrite X. apply Qle_refl.
        -- apply B, in_map, X.
Qed.

Lemma line_ok : forall t x, entry_ok arcs l t x -> line_for l t (line_of x).
Proof.
  intros t x (_ & O & S & M & T1 & T2). unfold line_for, line_of. cbn [l_t1 l_dur l_conf]. unfold count, qn. rewrite O, T1, T2, S.
  repeat split; reflexivity.
Qed.
End Vote.

(** C44: the word that is printed at a position has the largest score among the proposed ones,
    and every word proposed before it has a smaller score; the score is the documented mixture of
    the share of the systems that propose the word and of their confidences.  Nothing is printed
    when the null word wins.  The program stops when no score is larger than -1, or when there are
    more than 49 different words. *)
Theorem C44_vote : forall e s r to arcs l, Forall2 (casts e) arcs l -> (forall a, In a arcs -> fst a = to) -> arcs <> [] ->
  s_ctm s = true -> s_putat s = false -> s_meth s <> M_oracle -> rule_of (s_meth s) = Some r ->
  (r = ShareOfConfidence -> ~ (conf_sum l == 0)%Q) ->
  good_word e (v_word (s_null s)) -> w_frag (v_word (s_null s)) = false -> text_is (v_word (s_null s)) [64%N] ->
  let sc := vote_score r (s_alpha s) l in
  match print_linear e s arcs with
  | Ok out => exists t v, wins sc l t /\ (-1 < sc t)%Q /\ first_with arcs t v /\
      (List.length (firsts (map b_text l)) <= 49)%nat /\
      (t = [64%N] -> out = Nothing) /\
      (t <> [64%N] -> exists ln, out = Line ln /\ l_text ln = w_value (v_word v) /\ line_for l t ln)
  | Exit => (49 < List.length (firsts (map b_text l)))%nat \/ forall b, In b l -> (sc (b_text b) <= -1)%Q
  | _ => False
  end.
Proof.
  intros e s r to arcs l C LI NE CT PU NO R NZ GN FN TN sc. rewrite (start e s to arcs LI NE).
  pose proof (table e to arcs l C LI) as TB. destruct (tally e to arcs [] 0%Q) as [[ents total]| | |]; try exact TB; [|left; exact TB].
  destruct TB as (H & T & L). cbn [rbind].
  destruct (win e s arcs l r C ents total H T R NZ) as (best & E & D). rewrite E. cbn [rbind]. rewrite CT, PU.
  destruct D as [(-> & A)|(i & t & x & -> & NX & EX & IT & G & W)]; [right; exact A|]. rewrite NX.
  destruct (first_with_good e arcs l t (n_word x) C (proj1 EX)) as (G1 & F1 & T1).
  destruct (equal_texts e _ _ _ _ G1 GN F1 FN T1 TN) as (z & EZ & Z0).
  assert (RES : forall out, out = (if (z =? 0)%Z then Nothing else Line (line_of x)) ->
    exists t v, wins sc l t /\ (-1 < sc t)%Q /\ first_with arcs t v /\ (List.length (firsts (map b_text l)) <= 49)%nat /\
      (t = [64%N] -> out = Nothing) /\
      (t <> [64%N] -> exists ln, out = Line ln /\ l_text ln = w_value (v_word v) /\ line_for l t ln)).
  { intros out ->. exists t, (n_word x). split; [exact W|]. split; [exact G|]. split; [exact (proj1 EX)|]. split; [exact L|].
    destruct (Z.eqb_spec z 0) as [Y|Y].
    - apply Z0 in Y. split; [reflexivity|]. intro X. contradiction.
    - split; [intro X; exfalso; apply Y, Z0, X|]. intros _. exists (line_of x). split; [reflexivity|]. split; [reflexivity|].
      apply (line_ok arcs l t x EX). }
  destruct (s_meth s); try discriminate; try contradiction; rewrite EZ; cbn [rbind]; apply RES; reflexivity.
Qed.
Print Assumptions C44_vote.

(** With non negative confidences, or when only the frequencies count, there is a winner. *)
Theorem C44_always_a_winner : forall r alpha l, l <> [] -> (0 <= alpha <= 1)%Q ->
  (alpha == 1)%Q \/ (forall b, In b l -> (0 <= b_conf b)%Q) ->
  forall b, In b l -> (-1 < vote_score r alpha l (b_text b))%Q.
Proof.
  assert (CN : forall l, (0 <= count l)%Q).
  { intro l. unfold count. rewrite <- (Zle_Qle 0). lia. }
  assert (DIV : forall a b, (0 <= a -> 0 <= b -> 0 <= a / b)%Q).
  { intros a b A B. unfold Qdiv. apply Qmult_le_0_compat; [exact A|apply Qinv_le_0_compat, B]. }
  assert (QS : forall m, (forall q, In q m -> (0 <= q)%Q) -> (0 <= qsum m)%Q).
  { intros m M. unfold qsum. induction m as [|q m IH]; cbn; [lra|]. assert (0 <= q)%Q by (apply M; left; reflexivity).
    assert (0 <= fold_right Qplus 0 m)%Q by (apply IH; intros z I; apply M; right; exact I). lra. }
  intros r alpha l NE A H b I. unfold vote_score.
  assert (F : (0 <= count (votes l (b_text b)) / count l)%Q) by (apply DIV; apply CN).
  destruct H as [H|H].
  - assert (X : (alpha * (count (votes l (b_text b)) / count l) + (1 - alpha) * confidence r l (b_text b) == count (votes l (b_text b)) / count l)%Q) by (rewrite H; ring).
    rewrite X. lra.
  - assert (Y : (0 <= confidence r l (b_text b))%Q).
    { assert (V : forall q, In q (map b_conf (votes l (b_text b))) -> (0 <= q)%Q).
      { intros q J. apply in_map_iff in J. destruct J as (c & <- & J). apply filter_In in J. apply H, J. }
      destruct r; cbn [confidence].
      - apply DIV; [apply QS, V|apply CN].
      - unfold conf_max. destruct (map b_conf (votes l (b_text b))) as [|q m]; cbn; [lra|].
        apply Qle_trans with (2 := Q.le_max_l _ _). apply V. left. reflexivity.
      - apply DIV; apply QS; [exact V|]. intros q J. apply in_map_iff in J. destruct J as (c & <- & J). apply H, J. }
    assert (0 <= alpha * (count (votes l (b_text b)) / count l))%Q by (apply Qmult_le_0_compat; [lra|exact F]).
    assert (0 <= (1 - alpha) * confidence r l (b_text b))%Q by (apply Qmult_le_0_compat; [lra|exact Y]). lra.
Qed.
Print Assumptions C44_always_a_winner.

(** Voting by frequency alone: no word is proposed by more systems than the winner. *)
Theorem C44_majority : forall r l t, wins (vote_score r 1 l) l t -> l <> [] ->
  forall u, (List.length (votes l u) <= List.length (votes l t))%nat.
Proof.
  intros r l t (pre & x & post & E & T & A & B) NE u.
  assert (P : (0 < count l)%Q). { unfold count. rewrite <- (Zlt_Qlt 0). destruct l; [contradiction|cbn [List.length]; lia]. }
  assert (S : forall v, (vote_score r 1 l v == count (votes l v) / count l)%Q) by (intro v; unfold vote_score; ring).
  destruct (votes l u) as [|b m] eqn:V; [cbn; lia|]. rewrite <- V.
  assert (I : In b (votes l u)) by (rewrite V; left; reflexivity). apply filter_In in I. destruct I as (I & U). apply text_eq_spec in U.
  specialize (B b I). rewrite !S, U in B. unfold Qdiv in B. apply Qmult_le_r in B; [|apply Qinv_lt_0_compat, P].
  unfold count in B. rewrite <- Zle_Qle in B. lia.
Qed.
Print Assumptions C44_majority.

(** The oracle output: one line for each different text, in the order of first proposals. *)
Theorem C44_oracle : forall e s to arcs l, Forall2 (casts e) arcs l -> (forall a, In a arcs -> fst a = to) -> arcs <> [] ->
  s_ctm s = true -> s_putat s = false -> s_meth s = M_oracle ->
  let sc := vote_score AverageConfidence (s_alpha s) l in
  match print_linear e s arcs with
  | Ok out => exists lns, out = Alternatives lns /\
      Forall2 (fun t ln => line_for l t ln /\ exists v, first_with arcs t v /\ l_text ln = w_value (v_word v)) (firsts (map b_text l)) lns
  | Exit => (49 < List.length (firsts (map b_text l)))%nat \/ forall b, In b l -> (sc (b_text b) <= -1)%Q
  | _ => False
  end.
Proof.
  intros e s to arcs l C LI NE CT PU MO sc. rewrite (start e s to arcs LI NE).
  pose proof (table e to arcs l C LI) as TB. destruct (tally e to arcs [] 0%Q) as [[ents total]| | |]; try exact TB; [|left; exact TB].
  destruct TB as (H & T & L). cbn [rbind].
  destruct (win e s arcs l AverageConfidence C ents total H T ltac:(rewrite MO; reflexivity) ltac:(discriminate)) as (best & E & D). rewrite E. cbn [rbind]. rewrite CT, PU, MO.
  destruct D as [(-> & A)|(i & t & x & -> & _)]; [right; exact A|].
  exists (map line_of ents). split; [reflexivity|]. clear - H.
  induction H as [|t x ts ents EX H IH]; [constructor|]. cbn [map]. constructor; [|exact IH].
  split; [apply (line_ok arcs l t x EX)|]. exists (n_word x). split; [exact (proj1 EX)|reflexivity].
Qed.
Print Assumptions C44_oracle.

(** Shares of a zero total are not numbers: voting by avgconf stops the program when all the
    confidences are 0, even if only the frequencies count. *)
Definition plain (t : list N) : word :=
  {| w_value := t; w_intern := None; w_opt_del := false; w_frag := false; w_t1 := 0; w_t2 := 0; w_dur := 0; w_weight := 0 |}.
Definition ask (m : meth) (alpha : Q) : sel :=
  {| s_null := {| v_word := plain [64%N]; v_conf := 0 |}; s_alpha := alpha; s_ctm := true; s_putat := false; s_meth := m |}.
Theorem C44_zero_confidences_refuted : exists arcs, arcs <> [] /\
  (forall a, In a arcs -> fst a = 0%nat /\ v_conf (snd a) = 0) /\ print_linear ASCII (ask M_avgconf 1) arcs = Exit.
Proof.
  exists [(0%nat, {| v_word := plain [97%N]; v_conf := 0 |}); (0%nat, {| v_word := plain [97%N]; v_conf := 0 |})].
  split; [discriminate|]. split; [intros a [<-|[<-|[]]]; split; reflexivity|]. vm_compute. reflexivity.
Qed.
Print Assumptions C44_zero_confidences_refuted.

(** Files without confidences have confidence -1 for every word: with alpha 0 the program stops. *)
Theorem C44_no_confidences_refuted : exists arcs, arcs <> [] /\
  (forall a, In a arcs -> fst a = 0%nat /\ v_conf (snd a) = -1) /\ print_linear ASCII (ask M_meth1 0) arcs = Exit.
Proof.
  exists [(0%nat, {| v_word := plain [97%N]; v_conf := -1 |}); (0%nat, {| v_word := plain [97%N]; v_conf := -1 |})].
  split; [discriminate|]. split; [intros a [<-|[<-|[]]]; split; reflexivity|]. vm_compute. reflexivity.
Qed.
Print Assumptions C44_no_confidences_refuted.

Example vote_case :
  let a := {| v_word := plain [97%N]; v_conf := 1 # 2 |} in let b := {| v_word := plain [98%N]; v_conf := 9 # 10 |} in
  match print_linear ASCII (ask M_meth1 1) [(3%nat, b); (3%nat, a); (3%nat, a)] with Ok (Line ln) => l_text ln = [97%N] | _ => False end /\
  match print_linear ASCII (ask M_maxconf (1 # 10)) [(3%nat, b); (3%nat, a); (3%nat, a)] with Ok (Line ln) => l_text ln = [98%N] | _ => False end /\
  match print_linear ASCII (ask M_meth1 1) [(3%nat, b); (3%nat, a)] with Ok (Line ln) => l_text ln = [98%N] | _ => False end /\
  print_linear ASCII (ask M_meth1 1) [(3%nat, s_null (ask M_meth1 1)); (3%nat, a)] = Ok Nothing.
Proof. vm_compute. repeat split. Qed.
(** The hypotheses of [C44_vote] hold for such arcs. *)
Example casts_case : Forall2 (casts ASCII)
  [(3%nat, {| v_word := plain [98%N]; v_conf := 9 # 10 |}); (3%nat, {| v_word := plain [97%N]; v_conf := 1 # 2 |})]
  [{| b_text := [98%N]; b_t1 := 0; b_t2 := 0; b_conf := 9 # 10 |}; {| b_text := [97%N]; b_t1 := 0; b_t2 := 0; b_conf := 1 # 2 |}] /\
  good_word ASCII (plain [64%N]).
Proof.
  assert (W : forall c, (0 < c < 128)%N -> well_formed ASCII [c]).
  { intros c C. exists [[c]]. split; [reflexivity|]. constructor; [|constructor].
    exists c, []. split; [reflexivity|]. split; [reflexivity|]. constructor; [lia|constructor]. }
  assert (G : forall c, (0 < c < 128)%N -> good_word ASCII (plain [c])).
  { intros c C. split; [apply W, C|]. exists [c]. split; [left; split; reflexivity|]. split; [discriminate|apply W, C]. }
  split; [|apply G; lia]. constructor; [|constructor; [|constructor]]; (split; [apply G; lia|]; split; [reflexivity|]; split; [left; split; reflexivity|]; repeat split).
Qed.
