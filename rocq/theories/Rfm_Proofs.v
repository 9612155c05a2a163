(** Proofs about the run of the text filter. *)
From Coq Require Import List NArith ZArith Arith Bool Lia.
From Verif Require Import Base Rfilter_Model Rfilter_Spec Rfilter_Proofs Rfilter_Thm Rfm_Model Rfm_Spec.
Import ListNotations.
Local Open Scope res_scope.

(** ** Records *)
Lemma take_newline l : forall n rest, ~ In 10%N l -> length l < n -> take_line n (l ++ 10%N :: rest) = (l ++ [10%N], rest).
Proof.
  induction l as [|c l IH]; intros [|n] rest A L; cbn [length] in L; try lia; cbn [app take_line].
  - reflexivity.
  - destruct (N.eqb_spec c 10) as [->|D]; [exfalso; apply A; now left|].
    rewrite IH; [reflexivity|intros I; apply A; now right|lia].
Qed.
Lemma take_end l : forall n, ~ In 10%N l -> length l <= n -> take_line n l = (l, []).
Proof.
  induction l as [|c l IH]; intros [|n] A L; cbn [length] in L; try lia; cbn [take_line]; try reflexivity.
  destruct (N.eqb_spec c 10) as [->|D]; [exfalso; apply A; now left|].
  rewrite IH; [reflexivity|intros I; apply A; now right|lia].
Qed.
Lemma take_full l : forall n rest, ~ In 10%N l -> length l = n -> take_line n (l ++ rest) = (l, rest).
Proof.
  induction l as [|c l IH]; intros [|n] rest A L; cbn [length] in L; try lia; cbn [app take_line]; [reflexivity|].
  destruct (N.eqb_spec c 10) as [->|D]; [exfalso; apply A; now left|].
  rewrite IH; [reflexivity|intros I; apply A; now right|lia].
Qed.
Lemma take_parts n : forall f, fst (take_line n f) ++ snd (take_line n f) = f.
Proof.
  induction n as [|n IH]; intros [|c f]; cbn [take_line]; try reflexivity.
  destruct (c =? 10)%N; [reflexivity|]. specialize (IH f). destruct (take_line n f) as [a b]. cbn [fst snd app] in *. now rewrite IH.
Qed.
Lemma take_some n c f : exists x a, fst (take_line (S n) (c :: f)) = x :: a.
Proof. cbn [take_line]. destruct (c =? 10)%N; [eexists _, _; reflexivity|]. destruct (take_line n f) as [a b]. eexists _, _; reflexivity. Qed.
Lemma cut0_id l : ~ In 0%N l -> cut0 l = l.
Proof.
  induction l as [|c l IH]; intros A; cbn [cut0]; [reflexivity|].
  destruct (N.eqb_spec c 0) as [->|D]; [exfalso; apply A; now left|]. rewrite IH; [reflexivity|intros I; apply A; now right].
Qed.
Lemma cut0_at a b : ~ In 0%N a -> cut0 (a ++ 0%N :: b) = a.
Proof.
  induction a as [|c a IH]; intros A; cbn [app cut0]; [reflexivity|].
  destruct (N.eqb_spec c 0) as [->|D]; [exfalso; apply A; now left|]. rewrite IH; [reflexivity|intros I; apply A; now right].
Qed.
Lemma take_app n : forall a b, (exists a1 a2, take_line n (a ++ [10%N]) = (a1, a2 ++ [10%N]) /\ take_line n (a ++ 10%N :: b) = (a1, a2 ++ 10%N :: b))
  \/ (exists a1, take_line n (a ++ [10%N]) = (a1, []) /\ take_line n (a ++ 10%N :: b) = (a1, b)).
Proof.
  induction n as [|n IH]; intros a b.
  - left. exists [], a. now split.
  - destruct a as [|c a]; cbn [app take_line].
    + right. exists [10%N]. now split.
    + destruct (c =? 10)%N eqn:E; [left; exists [c], a; now split|].
      destruct (IH a b) as [(a1 & a2 & -> & ->)|(a1 & -> & ->)].
      * left. exists (c :: a1), a2. now split.
      * right. exists (c :: a1). now split.
Qed.

(** ** The loop *)
Lemma take_left n c f : length (snd (take_line (S n) (c :: f))) < length (c :: f).
Proof.
  pose proof (take_parts (S n) (c :: f)) as P. destruct (take_some n c f) as (x & a & E). rewrite E in P.
  rewrite <- P at 2. rewrite app_length. cbn [length]. lia.
Qed.
Lemma loop_fuel max s : 2 <= max -> forall k k' f, length f < k -> length f < k' -> loop k max s f = loop k' max s f.
Proof.
  intros M. induction k as [|k IH]; intros [|k'] f A B; try lia. cbn [loop].
  destruct f as [|c f]; [reflexivity|]. destruct max as [|[|m]]; try lia. replace (S (S m) - 1) with (S m) by lia.
  pose proof (take_left m c f) as T. destruct (take_line (S m) (c :: f)) as [l rest]. cbn [snd] in T.
  destruct (cut0 l) as [|x y]; [reflexivity|]. rewrite (IH k' rest) by lia. reflexivity.
Qed.
(** one record *)
Definition one (max : nat) (s : ruleset) (l : text) : res text :=
  match cut0 l with [] => Undef | pa => let* o := apply_rules2 max s pa in Ok (fst o) end.
Lemma run_nil max s : run max s [] = Ok [].
Proof. reflexivity. Qed.
Lemma run_step max s f l rest : 2 <= max -> f <> [] -> take_line (max - 1) f = (l, rest) ->
  run max s f = let* o := one max s l in let* r := run max s rest in Ok (o ++ r).
Proof.
  intros M F T. unfold run at 1. cbn [loop]. destruct f as [|c f]; [now elim F|]. rewrite T.
  assert (length rest < length (c :: f)) as L.
  { destruct max as [|[|m]]; try lia. replace (S (S m) - 1) with (S m) in T by lia. pose proof (take_left m c f) as P. now rewrite T in P. }
  unfold one. destruct (cut0 l) as [|x y]; [reflexivity|].
  destruct (apply_rules2 max s (x :: y)) as [[o h]| | |]; cbn [rbind]; try reflexivity.
  rewrite (loop_fuel max s M (length (c :: f)) (S (length rest)) rest) by lia. reflexivity.
Qed.

(** ** Files in two parts *)
Lemma run_app max s b : 2 <= max -> forall n a, length a < n ->
  run max s (a ++ 10%N :: b) = let* x := run max s (a ++ [10%N]) in let* y := run max s b in Ok (x ++ y).
Proof.
  intros M. induction n as [|n IH]; intros a L; [lia|].
  assert (a ++ 10%N :: b <> []) as F1 by (now destruct a). assert (a ++ [10%N] <> []) as F2 by (now destruct a).
  destruct (take_app (max - 1) a b) as [(a1 & a2 & T1 & T2)|(a1 & T1 & T2)].
  - rewrite (run_step max s _ _ _ M F1 T2), (run_step max s _ _ _ M F2 T1).
    assert (length a2 < n) as L2.
    { destruct a as [|c a].
      - exfalso. destruct max as [|[|m]]; try lia. cbn in T1. injection T1 as _ T1. now destruct a2.
      - destruct max as [|[|m]]; try lia. replace (S (S m) - 1) with (S m) in T1 by lia. cbn [app] in T1.
        pose proof (take_left m c (a ++ [10%N])) as P. rewrite T1 in P. cbn [snd length] in P. rewrite !app_length in P. cbn [length] in *. lia. }
    rewrite (IH a2 L2). destruct (one max s a1) as [o| | |]; cbn [rbind]; try reflexivity.
    destruct (run max s (a2 ++ [10%N])) as [x| | |]; cbn [rbind]; try reflexivity.
    destruct (run max s b) as [y| | |]; cbn [rbind]; try reflexivity. now rewrite app_assoc.
  - rewrite (run_step max s _ _ _ M F1 T2), (run_step max s _ _ _ M F2 T1). rewrite run_nil.
    destruct (one max s a1) as [o| | |]; cbn [rbind]; try reflexivity. now rewrite app_nil_r.
Qed.

(** ** Lines *)
Lemma lines_exist n : forall f, length f < n -> exists ls, lines f ls.
Proof.
  induction n as [|n IH]; intros f L; [lia|].
  destruct (in_dec N.eq_dec 10%N f) as [I|I].
  - assert (exists a b, f = a ++ 10%N :: b /\ ~ In 10%N a) as (a & b & -> & A).
    { clear -I. induction f as [|c f IHf]; [easy|]. destruct (N.eq_dec c 10) as [->|D].
      - exists [], f. split; [reflexivity|easy].
      - destruct IHf as (a & b & -> & A). { destruct I as [I|I]; [now elim D|exact I]. }
        exists (c :: a), b. split; [reflexivity|]. intros [J|J]; [now apply D|now apply A]. }
    destruct (IH b) as [ls B]. { rewrite app_length in L. cbn [length] in L. lia. }
    exists ((a ++ [10%N]) :: ls). now constructor.
  - destruct f as [|c f]; [exists []; constructor|]. exists [c :: f]. now constructor.
Qed.
Lemma lines_run max s f ls : 2 <= max -> lines f ls -> Forall (fun l => length l < max) ls ->
  run max s f = fold_right (fun l r => let* o := one max s l in let* r := r in Ok (o ++ r)) (Ok []) ls.
Proof.
  intros M. induction 1 as [|l N0 A|l rest ls A H IH]; intros F; cbn [fold_right].
  - reflexivity.
  - inversion F as [|? ? F1 F2]; subst. rewrite (run_step max s l l [] M N0) by (apply take_end; [exact A|lia]). now rewrite run_nil.
  - inversion F as [|? ? F1 F2]; subst. rewrite app_length in F1. cbn [length] in F1.
    rewrite (run_step max s _ (l ++ [10%N]) rest M); [now rewrite IH|now destruct l|apply take_newline; [exact A|lia]].
Qed.
Lemma lines_plain f ls : lines f ls -> plain f -> Forall (fun l => l <> [] /\ is_line l) ls.
Proof.
  induction 1 as [|l N0 A|l rest ls A H IH]; intros P.
  - constructor.
  - constructor; [|constructor]. split; [exact N0|]. apply Forall_forall. intros c I E. subst. now apply P.
  - constructor.
    + split; [now destruct l|]. apply Forall_forall. intros c I E. subst. apply P. apply in_app_iff in I. apply in_app_iff.
      destruct I as [I|[I|[]]]; [now left|discriminate].
    + apply IH. intros I. apply P. apply in_app_iff. right. now right.
Qed.
Lemma one_line max rs cs copy l : 0 < max -> l <> [] -> is_line l -> roomy cs rs l ->
  exists out, (exists used, rewrites cs copy rs [] l out used) /\
    (forall out', (exists used, rewrites cs copy rs [] l out' used) -> out' = out) /\
    (length out < max -> one max (make_ruleset rs cs copy) l = Ok out) /\
    (max <= length out -> one max (make_ruleset rs cs copy) l = Undef).
Proof.
  intros M N0 L R. destruct (C45_filter max rs cs copy l M L R) as (out & used & W & U & A & B).
  exists out. split; [now exists used|]. split; [intros out' [u H]; now destruct (U _ _ H)|].
  assert (one max (make_ruleset rs cs copy) l = let* o := apply_rules2 max (make_ruleset rs cs copy) l in Ok (fst o)) as E.
  { unfold one. rewrite cut0_id; [now destruct l|]. intros I. unfold is_line in L. rewrite Forall_forall in L. now apply (L _ I). }
  rewrite E. split; intros H; [now rewrite (A H)|now rewrite (B H)].
Qed.
Lemma fold_ok max rs cs copy ls : 0 < max -> Forall (fun l => l <> [] /\ is_line l) ls -> Forall (roomy cs rs) ls ->
  exists outs, rewritten cs copy rs ls outs /\ (forall outs', rewritten cs copy rs ls outs' -> outs' = outs) /\
    (Forall (fun o => length o < max) outs ->
      fold_right (fun l r => let* o := one max (make_ruleset rs cs copy) l in let* r := r in Ok (o ++ r)) (Ok []) ls = Ok (concat outs)) /\
    (Exists (fun o => max <= length o) outs ->
      fold_right (fun l r => let* o := one max (make_ruleset rs cs copy) l in let* r := r in Ok (o ++ r)) (Ok []) ls = Undef).
Proof.
  intros M. induction ls as [|l ls IH]; intros A R.
  - exists []. split; [constructor|]. split; [intros o H; now inversion H|]. split; [reflexivity|intros H; now inversion H].
  - inversion A as [|? ? [A1 A1'] A2]; inversion R as [|? ? R1 R2]; subst. destruct (IH A2 R2) as (outs & W & U & G & B).
    destruct (one_line max rs cs copy l M A1 A1' R1) as (o & W1 & U1 & G1 & B1).
    exists (o :: outs). split; [now constructor|]. split.
    { intros o' H. inversion H as [|? ? ? ? H1 H2]; subst. f_equal; [now apply U1|now apply U]. }
    cbn [fold_right concat]. split; intros H.
    + inversion H as [|? ? H1 H2]; subst. now rewrite (G1 H1), (G H2).
    + destruct (le_lt_dec max (length o)) as [T|T]; [now rewrite (B1 T)|]. rewrite (G1 T). cbn [rbind].
      inversion H as [? ? H1|? ? H1]; subst; [lia|]. now rewrite (B H1).
Qed.

(** ** Files that no rule touches *)
Lemma take_short n : forall f, length (fst (take_line n f)) <= n.
Proof.
  induction n as [|n IH]; intros [|c f]; cbn [take_line]; try (cbn; lia).
  destruct (c =? 10)%N; [cbn; lia|]. specialize (IH f). destruct (take_line n f) as [a b]. cbn [fst length] in *. lia.
Qed.
Lemma kept cs rs l : forall left, untouched cs rs l -> rewrites cs true rs left l l [].
Proof.
  induction l as [|c l IH]; intros left U; [constructor|].
  apply (R_char cs true rs left c l l []).
  - intros q m' rest' I (E & N0 & F & _). now apply (U q [] m' rest' I E N0).
  - apply IH. intros r a m b I E N0. apply (U r (c :: a) m b I); [cbn; now rewrite E|exact N0].
Qed.
Lemma untouched_part cs rs a l b : untouched cs rs (a ++ l ++ b) -> untouched cs rs l.
Proof. intros U r x m y I E N0. apply (U r (a ++ x) m (y ++ b) I); [rewrite E; now rewrite !app_assoc|exact N0]. Qed.
Lemma untouched_roomy cs rs l : untouched cs rs l -> roomy cs rs l.
Proof. intros U r left m rest I E N0 F. now elim (U r left m rest I E N0). Qed.
Lemma run_same max rs cs : 2 <= max -> forall n f, length f < n -> plain f -> untouched cs rs f -> run max (make_ruleset rs cs true) f = Ok f.
Proof.
  intros M. induction n as [|n IH]; intros f L P U; [lia|]. destruct f as [|c f]; [reflexivity|].
  destruct (take_line (max - 1) (c :: f)) as [l rest] eqn:T.
  pose proof (take_parts (max - 1) (c :: f)) as E. pose proof (take_short (max - 1) (c :: f)) as S1. rewrite T in E, S1. cbn [fst snd] in E, S1.
  assert (l <> []) as N0.
  { destruct max as [|[|m]]; try lia. replace (S (S m) - 1) with (S m) in T by lia. destruct (take_some m c f) as (x & a & X).
    rewrite T in X. cbn [fst] in X. now rewrite X. }
  assert (length rest < n) as LR by (rewrite <- E in L; rewrite app_length in L; destruct l; [now elim N0|cbn [length] in L; lia]).
  rewrite (run_step max _ (c :: f) l rest M) by (discriminate || exact T). rewrite <- E in P, U |- *.
  assert (untouched cs rs l) as U1 by (now apply (untouched_part cs rs [] l rest)).
  assert (untouched cs rs rest) as U2 by (apply (untouched_part cs rs l rest []); now rewrite app_nil_r).
  destruct (one_line max rs cs true l) as (o & _ & UO & G & _); [lia|exact N0| |now apply untouched_roomy|].
  { apply Forall_forall. intros x I X. subst. apply P. apply in_app_iff. now left. }
  assert (l = o) as <- by (apply UO; exists []; now apply kept).
  rewrite G by lia. rewrite (IH rest LR); [reflexivity| |exact U2]. intros I. apply P. apply in_app_iff. now right.
Qed.
