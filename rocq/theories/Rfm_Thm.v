(** C124: the text filter rewrites every line of its input by itself. *)
From Coq Require Import List NArith ZArith Arith Bool Lia.
From Verif Require Import Base Rfilter_Model Rfilter_Spec Rfilter_Proofs Rfilter_Thm Rfm_Model Rfm_Spec Rfm_Proofs.
Import ListNotations.
Local Open Scope res_scope.

Lemma rec_size : 2 <= max_input_rec.
Proof. unfold max_input_rec. lia. Qed.
Lemma rec_is : max_input_rec = record_size.
Proof. reflexivity. Qed.
Opaque max_input_rec record_size.

(** The output for a file of lines that fit is the rewriting of its lines, one after the other; there is exactly one, and
    the run is undefined when one of the rewritten lines does not fit. *)
Theorem C124_filter args name rules rs cs copy file ls :
  rules name = Some (make_ruleset rs cs copy) ->
  plain file -> lines file ls -> Forall (fun l => length l < record_size) ls -> Forall (roomy cs rs) ls ->
  exists outs, rewritten cs copy rs ls outs /\ (forall outs', rewritten cs copy rs ls outs' -> outs' = outs) /\
    (Forall (fun o => length o < record_size) outs -> main (name :: args) rules file = Ok (Filtered (concat outs))) /\
    (Exists (fun o => record_size <= length o) outs -> main (name :: args) rules file = Undef).
Proof.
  rewrite <- rec_is.
  intros R P L F G. pose proof rec_size as M.
  destruct (fold_ok max_input_rec rs cs copy ls) as (outs & W & U & A & B); [lia|now apply (lines_plain file)|exact G|].
  exists outs. split; [exact W|]. split; [exact U|]. cbn [main]. rewrite R. rewrite (lines_run _ _ file ls M L F).
  split; intros H; [now rewrite (A H)|now rewrite (B H)].
Qed.
Print Assumptions C124_filter.

(** Every file has lines, so that the theorem is about every file. *)
Theorem C124_lines file : exists ls, lines file ls.
Proof. exact (lines_exist (S (length file)) file (Nat.lt_succ_diag_r _)). Qed.
Print Assumptions C124_lines.

(** For every file, with lines of any length and any bytes: what is before a newline has no effect on what is after it. *)
Theorem C124_parts args rules a b out :
  main args rules (a ++ 10%N :: b) = Ok (Filtered out) <->
  exists x y, main args rules (a ++ [10%N]) = Ok (Filtered x) /\ main args rules b = Ok (Filtered y) /\ out = x ++ y.
Proof.
  unfold main. destruct args as [|name args].
  { split; [discriminate|now intros (x & y & H & _)]. }
  destruct (rules name) as [s|]; [|split; [discriminate|now intros (x & y & H & _)]].
  rewrite (run_app max_input_rec s b rec_size (S (length a)) a (Nat.lt_succ_diag_r _)).
  destruct (run max_input_rec s (a ++ [10%N])) as [x| | |]; cbn [rbind];
    try (split; [discriminate|now intros (x' & y & H & _)]).
  destruct (run max_input_rec s b) as [y| | |]; cbn [rbind];
    try (split; [discriminate|now intros (x' & y' & _ & H & _)]).
  split.
  - intros H. injection H as <-. now exists x, y.
  - intros (x' & y' & H1 & H2 & ->). injection H1 as <-. now injection H2 as <-.
Qed.
Print Assumptions C124_parts.

(** A file in which the left hand side of no rule occurs is copied, whatever the length of its lines. *)
Theorem C124_untouched args name rules rs cs file :
  rules name = Some (make_ruleset rs cs true) -> plain file -> untouched cs rs file ->
  main (name :: args) rules file = Ok (Filtered file).
Proof. intros R P U. cbn [main]. rewrite R. now rewrite (run_same max_input_rec rs cs rec_size (S (length file)) file (Nat.lt_succ_diag_r _) P U). Qed.
Print Assumptions C124_untouched.

(** Without the name of a rule file, or with one whose rules are in error, nothing is read. *)
Theorem C124_refused args rules file :
  (main args rules file = Ok Usage <-> args = []) /\
  (main args rules file = Ok Bad_rules <-> exists name more, args = name :: more /\ rules name = None).
Proof.
  destruct args as [|name args]; cbn [main].
  - split; split; try easy. now intros (n & m & H & _).
  - destruct (rules name) as [s|] eqn:R.
    + destruct (run max_input_rec s file) as [o| | |]; cbn [rbind]; (split; split; try easy);
        intros (n & m & H & E); injection H as -> ->; now rewrite R in E.
    + split; split; try easy. intros _. now exists name, args.
Qed.
Print Assumptions C124_refused.

(** ** Long lines *)
Definition ab_rule : rule := {| sin := [97; 98]%N; sout := [99]%N; lctx := []; rctx := [] |}.
Definition xs (k : nat) : text := repeat 120%N k.
Lemma ab_applies left right m rest : applies true ab_rule left right m rest -> exists r, right = 97%N :: 98%N :: r.
Proof.
  intros (E & _ & F & _). cbn [sin ab_rule] in F. inversion F as [|a ? m1 ? A1 F1]; subst. inversion F1 as [|b ? m2 ? A2 F2]; subst.
  inversion F2; subst. destruct A1 as [->|[D _]]; [|discriminate]. destruct A2 as [->|[D _]]; [|discriminate]. now exists rest.
Qed.
Lemma skip_xs k left right out used : rewrites true true [ab_rule] (left ++ xs k) right out used -> 
  rewrites true true [ab_rule] left (xs k ++ right) (xs k ++ out) used.
Proof.
  revert left. induction k as [|k IH]; intros left H; cbn [xs repeat app] in *.
  - now rewrite app_nil_r in H.
  - apply (R_char true true [ab_rule] left 120%N (xs k ++ right) (xs k ++ out) used).
    + intros q m' rest' [<-|[]] A. apply ab_applies in A. now destruct A as [r A].
    + apply IH. now rewrite <- app_assoc.
Qed.
Lemma keep_one left c : rewrites true true [ab_rule] left [c] [c] [].
Proof.
  apply (R_char true true [ab_rule] left c [] [] []); [|constructor].
  intros q m' rest' [<-|[]] A. apply ab_applies in A. now destruct A as [r A].
Qed.
Lemma ab_roomy l : roomy true [ab_rule] l.
Proof. intros r left m rest [<-|[]] _ _ _. cbn. lia. Qed.
Lemma xs_in k c : In c (xs k) -> c = 120%N.
Proof. apply repeat_spec. Qed.
Lemma xs_length k : length (xs k) = k.
Proof. apply repeat_length. Qed.
Lemma xs_line k l : is_line l -> is_line (xs k ++ l).
Proof. intros H. apply Forall_app. split; [|exact H]. apply Forall_forall. intros c I E. apply xs_in in I. now subst. Qed.
Lemma one_is max l out used : 0 < max -> l <> [] -> is_line l -> rewrites true true [ab_rule] [] l out used -> length out < max ->
  one max (make_ruleset [ab_rule] true true) l = Ok out.
Proof.
  intros M N0 L W O. destruct (one_line max [ab_rule] true true l M N0 L (ab_roomy l)) as (o & _ & U & G & _).
  assert (out = o) as -> by (apply U; now exists used). now apply G.
Qed.
(** a line of one byte more than fits is cut in two *)
Lemma long_run max : 2 <= max -> run max (make_ruleset [ab_rule] true true) (xs (max - 2) ++ [97; 98]%N) = Ok (xs (max - 2) ++ [97; 98]%N).
Proof.
  intros M. set (k := max - 2).
  assert (take_line (max - 1) (xs k ++ [97; 98]%N) = (xs k ++ [97%N], [98%N])) as T.
  { change [97%N; 98%N] with ([97%N] ++ [98%N]). rewrite app_assoc. apply take_full.
    - intros I. apply in_app_iff in I. destruct I as [I|[I|[]]]; [now apply xs_in in I|discriminate].
    - rewrite app_length, xs_length. cbn [length]. unfold k. lia. }
  rewrite (run_step max _ _ _ _ M) with (2 := T) by (now destruct (xs k)).
  rewrite (run_step max _ [98%N] [98%N] []) by (exact M || discriminate || (apply take_end; [intros [I|[]]; discriminate|cbn; lia])).
  rewrite (one_is max (xs k ++ [97%N]) (xs k ++ [97%N]) []).
  - rewrite (one_is max [98%N] [98%N] []).
    + rewrite run_nil. cbn [rbind]. now rewrite <- app_assoc.
    + lia.
    + discriminate.
    + now constructor.
    + apply keep_one.
    + cbn. lia.
  - lia.
  - now destruct (xs k).
  - apply xs_line. now constructor.
  - apply skip_xs. apply keep_one.
  - rewrite app_length, xs_length. cbn [length]. unfold k. lia.
Qed.

(** Lines that do not fit into the record are cut, and a rule does not reach over the cut. *)
Theorem C124_long_lines_refuted :
  ~ (forall name rules rs cs copy file ls outs,
       rules name = Some (make_ruleset rs cs copy) -> plain file -> lines file ls -> Forall (roomy cs rs) ls ->
       rewritten cs copy rs ls outs -> Forall (fun o => length o < record_size) outs ->
       main [name] rules file = Ok (Filtered (concat outs))).
Proof.
  rewrite <- rec_is.
  intros H. pose proof rec_size as M. pose proof (long_run max_input_rec M) as LR.
  remember (max_input_rec - 2) as k eqn:K.
  assert (~ In 10%N (xs k ++ [97; 98]%N)) as NL.
  { intros I. apply in_app_iff in I. destruct I as [I|[I|[I|[]]]]; [now apply xs_in in I|discriminate|discriminate]. }
  assert (plain (xs k ++ [97; 98]%N)) as P.
  { intros I. apply in_app_iff in I. destruct I as [I|[I|[I|[]]]]; [now apply xs_in in I|discriminate|discriminate]. }
  specialize (H [] (fun _ => Some (make_ruleset [ab_rule] true true)) [ab_rule] true true (xs k ++ [97; 98]%N)
                [xs k ++ [97; 98]%N] [xs k ++ [99%N]] eq_refl P).
  assert (main [[]] (fun _ => Some (make_ruleset [ab_rule] true true)) (xs k ++ [97; 98]%N) = Ok (Filtered (xs k ++ [97; 98]%N))) as E.
  { cbn [main]. now rewrite LR. }
  assert (Ok (Filtered (xs k ++ [97; 98]%N)) = Ok (Filtered (xs k ++ [99%N]))) as X.
  { etransitivity; [symmetry; exact E|]. etransitivity; [apply H|cbn [concat]; now rewrite app_nil_r].
    - constructor; [now destruct (xs k)|exact NL].
    - constructor; [apply ab_roomy|constructor].
    - constructor; [|constructor]. exists [1]. apply skip_xs. 
      apply (R_rule true true [ab_rule] ([] ++ xs k) [97; 98]%N [97; 98]%N [] ab_rule [] [] [] []).
      + reflexivity.
      + split; [reflexivity|]. split; [discriminate|]. split; [repeat (constructor; [now left|]); constructor|].
        split; [exists (xs k), []; split; [now rewrite app_nil_r|constructor]|exists [], []; split; [reflexivity|constructor]].
      + easy.
      + constructor.
    - constructor; [|constructor]. rewrite app_length, xs_length. cbn [length]. lia. }
  injection X as X. apply app_inv_head in X. discriminate.
Qed.
Print Assumptions C124_long_lines_refuted.

Lemma zero_run max s rest : 2 <= max -> run max s (0%N :: rest) = Undef.
Proof.
  intros M. destruct max as [|[|m]]; try lia.
  destruct (take_line (S (S m) - 1) (0%N :: rest)) as [l r] eqn:T. rewrite (run_step _ s _ l r M) by (discriminate || exact T).
  replace (S (S m) - 1) with (S m) in T by lia. cbn [take_line N.eqb] in T. destruct (take_line m rest) as [a b].
  injection T as <- <-. reflexivity.
Qed.
(** A line that begins with a zero byte makes the run undefined. *)
Theorem C124_zero_first name args rules s rest :
  rules name = Some s -> main (name :: args) rules (0%N :: rest) = Undef.
Proof. intros R. cbn [main]. rewrite R. now rewrite (zero_run _ s rest rec_size). Qed.
Print Assumptions C124_zero_first.

(** What follows a zero byte in its line is lost, with the newline. *)
Theorem C124_zero_refuted name args rules s a b rest :
  rules name = Some s -> a <> [] -> ~ In 0%N a -> ~ In 10%N a -> ~ In 10%N b -> length (a ++ 0%N :: b) < record_size - 1 ->
  forall out, main (name :: args) rules (a ++ 0%N :: b ++ 10%N :: rest) = Ok (Filtered out) <->
  exists x y, main (name :: args) rules a = Ok (Filtered x) /\ main (name :: args) rules rest = Ok (Filtered y) /\ out = x ++ y.
Proof.
  rewrite <- rec_is.
  intros R N0 A0 A1 B1 L out. cbn [main]. rewrite R. pose proof rec_size as M.
  assert (~ In 10%N (a ++ 0%N :: b)) as NL.
  { intros I. apply in_app_iff in I. destruct I as [I|[I|I]]; [now apply A1|discriminate|now apply B1]. }
  replace (a ++ 0%N :: b ++ 10%N :: rest) with ((a ++ 0%N :: b) ++ 10%N :: rest) by (now rewrite <- app_assoc).
  rewrite (run_step _ s _ _ _ M) with (2 := take_newline _ _ rest NL L) by (now destruct a).
  rewrite app_length in L.
  rewrite (run_step _ s a a [] M N0) by (apply take_end; [exact A1|lia]). rewrite run_nil.
  assert (one max_input_rec s ((a ++ 0%N :: b) ++ [10%N]) = one max_input_rec s a) as ->.
  { unfold one. rewrite <- app_assoc. cbn [app]. now rewrite (cut0_at a _ A0), (cut0_id a A0). }
  destruct (one max_input_rec s a) as [x| | |]; cbn [rbind];
    try (split; [discriminate|now intros (x' & y & H & _)]).
  destruct (run max_input_rec s rest) as [y| | |]; cbn [rbind];
    try (split; [discriminate|now intros (x' & y' & _ & H & _)]).
  rewrite app_nil_r. split.
  - intros H. injection H as <-. now exists x, y.
  - intros (x' & y' & H1 & H2 & ->). injection H1 as <-. now injection H2 as <-.
Qed.
Print Assumptions C124_zero_refuted.

(** Two lines, the second without a newline: the rule fires in both. *)
Definition ex_file : text := [120; 97; 98; 10; 97; 98; 97]%N.
Example C124_ex_lines : lines ex_file [[120; 97; 98; 10]; [97; 98; 97]]%N.
Proof.
  apply (lines_more [120; 97; 98]%N [97; 98; 97]%N); [cbn; intuition discriminate|]. constructor; [discriminate|cbn; intuition discriminate].
Qed.
Example C124_ex_plain : plain ex_file /\ Forall (roomy true [ab_rule]) [[120; 97; 98; 10]; [97; 98; 97]]%N.
Proof. split; [cbv; intuition discriminate|repeat (constructor; [apply ab_roomy|]); constructor]. Qed.
Example C124_ex_run : run 6 (make_ruleset [ab_rule] true true) ex_file = Ok [120; 99; 10; 99; 97]%N.
Proof. reflexivity. Qed.
Example C124_ex_cut : run 3 (make_ruleset [ab_rule] true true) ex_file = Ok [120; 97; 98; 10; 99; 97]%N.
Proof. reflexivity. Qed.
Example C124_ex_main : main [[]] (fun _ => Some (make_ruleset [ab_rule] true true)) ex_file = Ok (Filtered [120; 99; 10; 99; 97]%N).
Proof. vm_compute. reflexivity. Qed.
Example C124_ex_untouched k : plain (xs k) /\ untouched true [ab_rule] (xs k).
Proof.
  split; [intros I; now apply xs_in in I|]. intros r a m b [<-|[]] E N0 F.
  inversion F as [|x ? m1 ? A1 F1]; subst. destruct A1 as [->|[D _]]; [|discriminate].
  assert (In 97%N (xs k)) as I by (rewrite E; apply in_app_iff; right; now left). now apply xs_in in I.
Qed.
