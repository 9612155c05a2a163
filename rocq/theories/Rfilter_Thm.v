(** C45: the text filter rewrites by the first applicable rule at every position. *)
From Coq Require Import List NArith ZArith Arith Bool Lia.
From Verif Require Import Base Rfilter_Model Rfilter_Spec Rfilter_Proofs.
Import ListNotations.
Local Open Scope res_scope.

(** Lines are C strings. *)
Definition is_line (l : text) : Prop := Forall (fun c => c <> 0%N) l.

(** The output is the one that rewriting by the list of rules prescribes, when it fits into the
    output array of [cap] bytes, and there is always exactly one such output. *)
Theorem C45_filter cap rs cs copy line :
  0 < cap -> is_line line -> roomy cs rs line ->
  exists out used, rewrites cs copy rs [] line out used /\
    (forall out' used', rewrites cs copy rs [] line out' used' -> out' = out /\ used' = used) /\
    (length out < cap -> apply_rules2 cap (make_ruleset rs cs copy) line = Ok (out, used)) /\
    (cap <= length out -> apply_rules2 cap (make_ruleset rs cs copy) line = Undef).
Proof.
  intros C L R. unfold apply_rules2. destruct (apply_ok cs copy rs cap (S (length line)) [] line [] []) as [out [used [RW E]]].
  - lia.
  - exact L.
  - exact R.
  - exact C.
  - cbn [app] in E. exists out, used. split; [exact RW|]. split.
    + intros out' used' H. destruct (rewrites_unique _ _ _ _ _ _ _ RW _ _ H) as [-> ->]. now split.
    + split; intros H; rewrite E.
      * now rewrite (proj2 (Nat.leb_gt _ _) H).
      * now rewrite (proj2 (Nat.leb_le _ _) H).
Qed.
Print Assumptions C45_filter.

(** The entries first_rule .. last_rule of the index for a character are the numbers of exactly
    the rules that begin with it, in the order of the file. *)
Theorem C45_index rs cs k :
  let t := index_rules cs rs 1 tables0 in
  let found := map (fun j => nth (Z.to_nat (first_rule t k) - 1 + j) (ix t) 0)
                   (seq 0 (Z.to_nat (last_rule t k - first_rule t k + 1))) in
  (forall i, In i found <-> exists r, 1 <= i /\ nth_error rs (i - 1) = Some r /\ key cs r = k) /\
  (forall a b, a < b < length found -> nth a found 0 < nth b found 0).
Proof.
  cbv zeta. destruct (visited cs true rs k) as [VN VX]. cbv zeta in VN, VX. cbn [tabs make_ruleset] in VN, VX.
  set (t := index_rules cs rs 1 tables0) in *. rewrite VN.
  assert (map (fun j => nth (Z.to_nat (first_rule t k) - 1 + j) (ix t) 0) (seq 0 (length (positions cs rs 1 k))) = positions cs rs 1 k) as ->.
  { apply nth_ext with (d := 0) (d' := 0); [now rewrite map_length, seq_length|].
    intros n H. rewrite map_length, seq_length in H.
    destruct (VX n) as [F1 NX]; [lia|].
    assert (nth n (map (fun j => nth (Z.to_nat (first_rule t k) - 1 + j) (ix t) 0) (seq 0 (length (positions cs rs 1 k)))) 0
            = nth (Z.to_nat (first_rule t k) - 1 + n) (ix t) 0) as ->.
    { apply nth_error_nth. rewrite nth_error_map.
      rewrite (nth_error_nth' (seq 0 (length (positions cs rs 1 k))) 0) by (now rewrite seq_length).
      rewrite seq_nth by exact H. reflexivity. }
    destruct (nth_error (positions cs rs 1 k) n) as [x|] eqn:P; [|apply nth_error_None in P; lia].
    rewrite (nth_error_nth _ _ _ P). apply nth_error_nth. rewrite <- NX. f_equal. lia. }
  split.
  - intros i. split.
    + intros H. apply positions_in in H. destruct H as [H [r [A B]]]. exists r. now repeat split.
    + intros [r [H [A B]]]. subst k. replace i with (1 + (i - 1)) by lia. now apply positions_nth.
  - clear. generalize 1 as i. induction rs as [|r rs IH]; intros i a b H; cbn [positions] in *; [cbn in H; lia|].
    destruct (key cs r =? k)%N; cbn [app] in *; [|now apply IH].
    destruct b as [|b]; [lia|]. destruct a as [|a]; cbn [nth length] in *.
    + assert (In (nth b (positions cs rs (S i) k) 0) (positions cs rs (S i) k)) as X by (apply nth_In; lia).
      apply positions_in in X. lia.
    + apply IH. lia.
Qed.
Print Assumptions C45_index.

(** The filter always comes to the end of the line, whatever the rules. *)
Theorem C45_terminates cap rs cs copy line : is_line line -> apply_rules2 cap (make_ruleset rs cs copy) line <> NoFuel.
Proof.
  intros L. unfold apply_rules2.
  assert (forall fuel left right acc hits, length right < fuel -> Forall (fun c => c <> 0%N) right ->
    apply_loop fuel cap (make_ruleset rs cs copy) left right acc hits <> NoFuel) as H; [|now apply H; [lia|]].
  induction fuel as [|fuel IH]; intros left right acc hits FU NZ; [lia|]. cbn [apply_loop].
  destruct right as [|c rest]; [discriminate|]. cbv zeta. inversion NZ as [|? ? C0 NZ']; subst.
  change (case_sensitive (make_ruleset rs cs copy)) with cs. set (k := if cs then c else upper c).
  assert (NK : k <> 0%N).
  { subst k. destruct cs; [exact C0|]. unfold upper. destruct ((97 <=? c) && (c <=? 122))%N eqn:X; [|exact C0].
    apply andb_true_iff in X. rewrite !N.leb_le in X. lia. }
  destruct (visited cs copy rs k) as [VN VX]. cbv zeta in VN, VX. rewrite VN in *.
  set (s := make_ruleset rs cs copy) in *.
  assert (forall n j, j + n <= length (positions cs rs 1 k) ->
    match try_rules s n (first_rule (tabs s) k + Z.of_nat j) left (c :: rest) with
    | NoFuel => False
    | Ok (Some i) => exists r, nth_error (rules s) (i - 1) = Some r /\ sin r <> []
    | _ => True end) as T.
  { induction n as [|n IHn]; intros j J; cbn [try_rules]; [exact I|].
    destruct (VX j) as [F1 NX]; [lia|]. rewrite (proj2 (Z.ltb_ge _ _)) by lia. rewrite NX.
    destruct (nth_error (positions cs rs 1 k) j) as [i|] eqn:PJ; [|exact I].
    destruct (nth_error (rules s) (i - 1)) as [r|] eqn:NR; [|exact I].
    assert (sin r <> []) as SN.
    { apply nth_error_In, positions_in in PJ. destruct PJ as [_ [q [Q K]]].
      assert (q = r) by (subst s; cbn [rules make_ruleset] in NR; congruence). subst q.
      intros Z0. unfold key in K. rewrite Z0 in K. apply NK. rewrite <- K. destruct cs; reflexivity. }
    assert (fires (case_sensitive s) r left (c :: rest) <> NoFuel) as FN.
    { unfold fires. destruct (starts _ _ _); [|discriminate]. destruct (_ <? _)%nat; [discriminate|].
      destruct (starts _ _ _); discriminate. }
    destruct (fires (case_sensitive s) r left (c :: rest)) as [[]| | |]; cbn [rbind]; try exact I; [| |congruence].
    - exists r. now split.
    - replace (first_rule (tabs s) k + Z.of_nat j + 1)%Z with (first_rule (tabs s) k + Z.of_nat (S j))%Z by lia.
      apply IHn. lia. }
  specialize (T (length (positions cs rs 1 k)) 0 (le_n _)). rewrite Z.add_0_r in T.
  destruct (try_rules s _ _ left (c :: rest)) as [[i|]| | |]; cbn [rbind]; try discriminate; [| |contradiction].
  - destruct T as [r [NR SN]]. rewrite NR. destruct (cap <=? _)%nat; [discriminate|]. apply IH.
    + rewrite skipn_length. destruct (sin r); [congruence|]. cbn in *. lia.
    + rewrite <- (firstn_skipn (length (sin r)) (c :: rest)) in NZ. apply Forall_app in NZ. tauto.
  - destruct (cap <=? _)%nat; [discriminate|]. apply IH; [cbn in FU; lia|exact NZ'].
Qed.
Print Assumptions C45_terminates.

(** Without the room the statement is false: a rule with a left context whose left hand side
    begins the line makes the filter read the bytes before its input array. *)
Definition after_a : rule := {| lctx := [97]; sin := [98]; rctx := []; sout := [99] |}%N.
Theorem C45_left_edge_refuted :
  ~ (forall cap rs cs copy line, 0 < cap -> is_line line ->
       exists out used, rewrites cs copy rs [] line out used /\
         (length out < cap -> apply_rules2 cap (make_ruleset rs cs copy) line = Ok (out, used))).
Proof.
  intros H. destruct (H 100 [after_a] true true [98%N]) as [out [used [R E]]].
  - lia.
  - repeat constructor. discriminate.
  - assert (rewrites true true [after_a] [] [98%N] (if true then 98%N :: [] else []) []) as R'.
    { apply (R_char true true [after_a] [] 98%N [] [] []); [|constructor]. intros q m r [<-|[]] [_ [_ [_ [[l0 [lm [L F]]] _]]]].
      symmetry in L. apply app_eq_nil in L. destruct L as [_ ->]. inversion F. }
    destruct (rewrites_unique _ _ _ _ _ _ _ R _ _ R') as [-> ->].
    assert (apply_rules2 100 (make_ruleset [after_a] true true) [98%N] = Undef) as U by reflexivity.
    rewrite U in E. discriminate E. cbn. lia.
Qed.
Print Assumptions C45_left_edge_refuted.

(** "xab" with the rules  b => c / a _  and  x => (nothing), ignoring case. *)
Example filter_case :
  let rs := [after_a; {| lctx := []; sin := [120]; rctx := []; sout := [] |}]%N in
  is_line [88; 65; 66; 122]%N /\ roomy false rs [88; 65; 66; 122]%N /\
  apply_rules2 100 (make_ruleset rs false true) [88; 65; 66; 122]%N = Ok ([65; 99; 122]%N, [2; 1]).
Proof.
  split; [repeat constructor; discriminate|]. split; [|reflexivity].
  intros r left m rest [<-|[<-|[]]] E _ F; cbn [lctx sin after_a length] in *; [|lia].
  inversion F as [|a b m' q A F']; subst. inversion F'; subst. destruct left as [|x left]; [|cbn; lia]. exfalso.
  cbn in E. injection E as <- _. destruct A as [A|[_ [[i [H1 [H2 H3]]]|[i [H1 [H2 H3]]]]]]; lia.
Qed.
