(** Proofs about the growing array of steps and the sorting by time marks. *)
From Coq Require Import List Arith ZArith Bool Permutation Sorted Lia.
From Verif Require Import Base NetDp_Model Word_Model Order_Model Order_Proofs1 Order_Proofs3 Path_Model Path_Spec.
Import ListNotations.
Local Open Scope res_scope.
Local Open Scope nat_scope.

(** * the array *)
Section Array.
Context {A : Type}.
(** the entries of a path, in order *)
Definition holds (p : path A) (l : list A) : Prop :=
  p_num p = length l /\ length l <= length (p_pset p) /\ firstn (length l) (p_pset p) = map Some l /\ 4 <= length (p_pset p).

Lemma alloc_holds s : exists p, path_alloc (A := A) s = Ok p /\ holds p [] /\ (Z.max s 4 <= Z.of_nat (length (p_pset p)))%Z.
Proof.
  unfold path_alloc. eexists. split; [reflexivity|]. unfold holds. cbn [p_num p_pset length]. rewrite repeat_length.
  destruct (Z.ltb_spec s 4); repeat split; try reflexivity; lia.
Qed.

Lemma firstn_set {B} (a : list B) : forall n x a', set a n x = Ok a' -> n < length a ->
  length a' = length a /\ firstn (S n) a' = firstn n a ++ [x].
Proof.
  induction a as [|b a IH]; intros n x a' H L; [cbn in L; lia|]. destruct n; cbn in H.
  - injection H as <-. split; reflexivity.
  - destruct (set a n x) as [r| | |] eqn:E; try discriminate. cbn in H. injection H as <-.
    destruct (IH n x r E) as [P Q]; [cbn in L; lia|]. split; [cbn; lia|].
    change (firstn (S (S n)) (b :: r)) with (b :: firstn (S n) r). rewrite Q. reflexivity.
Qed.
Lemma set_total {B} (a : list B) : forall n x, n < length a -> exists a', set a n x = Ok a'.
Proof.
  induction a as [|b a IH]; intros n x L; [cbn in L; lia|]. destruct n; cbn; [eexists; reflexivity|].
  destruct (IH n x) as [r ->]; [cbn in L; lia|]. eexists. reflexivity.
Qed.

Lemma append_holds p l x : holds p l -> exists p', path_append p x = Ok p' /\ holds p' (l ++ [x]) /\ length (p_pset p) <= length (p_pset p').
Proof.
  intros (N & L & F & M). unfold path_append.
  assert (C : exists q, check_space p = Ok q /\ holds q l /\ length l < length (p_pset q) /\ length (p_pset p) <= length (p_pset q)).
  { unfold check_space. rewrite N. destruct (Nat.leb_spec (length (p_pset p)) (length l)).
    - unfold expand_singarr. rewrite Nat.div_1_r.
      replace ((length l <=? length (p_pset p)) && (length l <=? length (p_pset p) * 2)) with true
        by (symmetry; apply andb_true_iff; split; apply Nat.leb_le; lia).
      cbn [rbind]. eexists. split; [reflexivity|]. unfold holds. cbn [p_num p_pset].
      rewrite app_length, firstn_length, repeat_length, Nat.min_l by lia.
      repeat split; try lia. rewrite firstn_app, firstn_length, Nat.min_l by lia.
      rewrite Nat.sub_diag. cbn [firstn]. rewrite app_nil_r. rewrite firstn_firstn, Nat.min_id. exact F.
    - exists p. split; [reflexivity|]. split; [unfold holds; auto|lia]. }
  destruct C as (q & -> & (N' & L' & F' & M') & Lt & Le). cbn [rbind]. rewrite N'.
  destruct (set_total (p_pset q) (length l) (Some x) Lt) as [a E]. rewrite E. cbn [rbind].
  destruct (firstn_set _ _ _ _ E Lt) as [La Fa].
  eexists. split; [reflexivity|]. unfold holds. cbn [p_num p_pset]. rewrite app_length, map_app, La. cbn [length map].
  repeat split; try lia. rewrite Nat.add_1_r, Fa, F'. reflexivity.
Qed.
Lemma remove_holds p l : holds p l -> holds (path_remove p) (removelast l).
Proof.
  intros (N & L & F & M). unfold path_remove, holds. cbn [p_num p_pset]. rewrite N.
  destruct l as [|y l0] using rev_ind; [cbn; auto|]. clear IHl0. rewrite removelast_last.
  rewrite app_length in *. cbn [length] in *. destruct (Nat.ltb_spec 0 (length l0 + 1)); [|lia].
  repeat split; try lia. rewrite map_app in F. rewrite <- (firstn_skipn (length l0) (firstn (length l0 + 1) (p_pset p))) in F.
  rewrite firstn_firstn, Nat.min_l in F by lia.
  apply (f_equal (firstn (length l0))) in F.
  rewrite !firstn_app, firstn_firstn, Nat.min_id, firstn_length, map_length, Nat.min_l, Nat.sub_diag in F by lia.
  cbn [firstn] in F. rewrite !app_nil_r in F. rewrite F. rewrite <- (map_length (@Some A) l0) at 1. apply firstn_all.
Qed.
End Array.

(** * sorting *)
Notation bt := begin_time.
Definition id_ok (s : wstep) : Prop := is_id s = true /\ time_of s = Ok (bt s).
Lemma id_ok_of s : well_formed_step s -> single_step s -> id_ok s.
Proof.
  destruct s as [[a b] e]. unfold single_step, id_ok. cbn [snd]. intros W [->| ->]; cbn in *; split; try reflexivity.
  - destruct W as [-> W]. destruct b; [reflexivity|contradiction].
  - destruct W as [W ->]. destruct a; [reflexivity|contradiction].
Qed.
Lemma id_single s : is_id s = true <-> single_step s.
Proof. destruct s as [[a b] []]; unfold single_step; cbn; split; intros H; try discriminate; auto; destruct H; discriminate. Qed.
Lemma id_pair s : is_id s = false <-> pair_step s.
Proof. destruct s as [[a b] []]; unfold pair_step; cbn; split; intros H; try discriminate; auto; destruct H; discriminate. Qed.

Fixpoint fpass (x : wstep) (l : list wstep) : list wstep :=
  match l with [] => [x] | y :: r => if (bt y <? bt x)%Z then y :: fpass x r else x :: fpass y r end.
Fixpoint swaps (x : wstep) (l : list wstep) : nat :=
  match l with [] => 0 | y :: r => if (bt y <? bt x)%Z then S (swaps x r) else swaps y r end.
Definition smaller (x : wstep) (l : list wstep) : nat := length (filter (fun y => bt y <? bt x)%Z l).
Fixpoint inv (l : list wstep) : nat := match l with [] => 0 | x :: r => smaller x r + inv r end.

Lemma fpass_perm l : forall x, Permutation (fpass x l) (x :: l).
Proof.
  induction l as [|y r IH]; intros x; cbn [fpass]; [reflexivity|].
  destruct (_ <? _)%Z; [rewrite IH; apply perm_swap|rewrite IH; reflexivity].
Qed.
Lemma smaller_perm x l l' : Permutation l l' -> smaller x l = smaller x l'.
Proof. unfold smaller. induction 1; cbn [filter]; auto; [destruct (_ <? _)%Z; cbn; auto|repeat destruct (_ <? _)%Z; reflexivity|congruence]. Qed.
Lemma fpass_inv l : forall x, inv (fpass x l) + swaps x l = inv (x :: l).
Proof.
  induction l as [|y r IH]; intros x; [reflexivity|]. cbn [fpass swaps inv].
  destruct (Z.ltb_spec (bt y) (bt x)).
  - cbn [inv]. rewrite (smaller_perm y _ _ (fpass_perm r x)). specialize (IH x). cbn [inv] in IH.
    unfold smaller in *. cbn [filter]. destruct (Z.ltb_spec (bt x) (bt y)), (Z.ltb_spec (bt y) (bt x)); cbn [length]; lia.
  - cbn [inv]. rewrite (smaller_perm x _ _ (fpass_perm r y)). specialize (IH y). cbn [inv] in IH. lia.
Qed.
Lemma fpass_same l : forall x, swaps x l = 0 -> fpass x l = x :: l /\ StronglySorted (fun s s' => (bt s <= bt s')%Z) (x :: l).
Proof.
  induction l as [|y r IH]; intros x H; cbn [swaps fpass] in *.
  - split; [reflexivity|]. repeat constructor.
  - destruct (Z.ltb_spec (bt y) (bt x)); [lia|]. destruct (IH y H) as [E S]. rewrite E. split; [reflexivity|].
    constructor; [exact S|]. constructor; [exact H0|]. inversion S as [|? ? S1 S2]; subst. eapply Forall_impl; [|exact S2].
    cbn. intros; lia.
Qed.
Lemma fpass_time t l : forall x, at_time t (fpass x l) = at_time t (x :: l).
Proof.
  unfold at_time. induction l as [|y r IH]; intros x; [reflexivity|]. cbn [fpass].
  destruct (Z.ltb_spec (bt y) (bt x)).
  - cbn [filter]. rewrite IH. cbn [filter]. destruct (Z.eqb_spec (bt y) t), (Z.eqb_spec (bt x) t); try reflexivity; lia.
  - cbn [filter]. rewrite IH. cbn [filter]. reflexivity.
Qed.
Lemma fpass_length l x : length (fpass x l) = S (length l).
Proof. rewrite (Permutation_length (fpass_perm l x)). reflexivity. Qed.
Lemma inv_bound l : inv l <= length l * length l.
Proof.
  induction l as [|x l IH]; [reflexivity|]. cbn [inv length]. assert (smaller x l <= length l).
  { unfold smaller. clear. induction l; cbn; [lia|]. destruct (_ <? _)%Z; cbn; lia. } nia.
Qed.

Definition stops (post : list wstep) : Prop := match post with [] => True | s :: _ => is_id s = false end.

Lemma set_app_mid {B} (pre : list B) x suf z : set (pre ++ x :: suf) (length pre) z = Ok (pre ++ z :: suf).
Proof. induction pre; cbn; [reflexivity|]. rewrite IHpre. reflexivity. Qed.
Lemma get_app_mid {B} (pre : list B) x suf : get (pre ++ x :: suf) (length pre) = Ok x.
Proof. unfold get. rewrite nth_error_app2 by lia. rewrite Nat.sub_diag. reflexivity. Qed.

Lemma pass_ok post : stops post -> forall run fuel pre x change, Forall id_ok (x :: run) -> length run < fuel ->
  pass fuel (pre ++ x :: run ++ post) (length pre + 1) change
  = Ok (pre ++ fpass x run ++ post, change || (0 <? swaps x run)).
Proof.
  intros Hp. induction run as [|y run IH]; intros fuel pre x change F L; (destruct fuel as [|fuel]; [lia|]); cbn [pass].
  - cbn [app fpass swaps]. rewrite orb_false_r.
    destruct (Nat.ltb_spec (length pre + 1) (length (pre ++ x :: post))) as [Lt|_]; [|reflexivity].
    destruct post as [|s post]; [rewrite app_length in Lt; cbn in Lt; lia|]. cbn [stops] in Hp.
    replace (pre ++ x :: s :: post) with ((pre ++ [x]) ++ s :: post) by (rewrite <- app_assoc; reflexivity).
    replace (length pre + 1) with (length (pre ++ [x])) by (rewrite app_length; reflexivity).
    rewrite get_app_mid. cbn [rbind]. rewrite Hp. reflexivity.
  - inversion F as [|? ? Fx Fr]; subst. inversion Fr as [|? ? Fy Fr']; subst.
    destruct (Nat.ltb_spec (length pre + 1) (length (pre ++ x :: (y :: run) ++ post))) as [_|Lt];
      [|rewrite app_length in Lt; cbn in Lt; lia].
    replace (length pre + 1 - 1) with (length pre) by lia.
    rewrite get_app_mid. cbn [app].
    replace (pre ++ x :: y :: run ++ post) with ((pre ++ [x]) ++ y :: run ++ post) by (rewrite <- app_assoc; reflexivity).
    replace (length pre + 1) with (length (pre ++ [x])) by (rewrite app_length; reflexivity).
    rewrite get_app_mid. cbn [rbind]. destruct Fx as [Ix Tx], Fy as [Iy Ty]. rewrite Iy, Tx. cbn [rbind]. rewrite Ty. cbn [rbind fpass swaps].
    destruct (Z.ltb_spec (bt y) (bt x)).
    + rewrite set_app_mid. cbn [rbind]. rewrite <- app_assoc. cbn [app]. rewrite set_app_mid. cbn [rbind].
      replace (pre ++ y :: x :: run ++ post) with ((pre ++ [y]) ++ x :: run ++ post) by (rewrite <- app_assoc; reflexivity).
      replace (length (pre ++ [x])) with (length (pre ++ [y])) by (rewrite !app_length; reflexivity).
      rewrite IH; [|constructor; [split; assumption|exact Fr']|cbn in L; lia].
      rewrite <- app_assoc. cbn [app Nat.ltb Nat.leb]. rewrite orb_true_r. reflexivity.
    + rewrite IH; [|exact Fr|cbn in L; lia]. rewrite <- app_assoc. reflexivity.
Qed.

Lemma passes_ok post pre : stops post -> forall fuel x run, Forall id_ok (x :: run) -> inv (x :: run) < fuel ->
  exists run', passes fuel (pre ++ (x :: run) ++ post) (length pre) = Ok (pre ++ run' ++ post) /\ time_sorted_from (x :: run) run'.
Proof.
  intros Hp. induction fuel as [|fuel IH]; intros x run F L; [lia|]. cbn [passes].
  destruct (Nat.ltb_spec (length pre) (length (pre ++ (x :: run) ++ post))) as [_|Lt];
    [|rewrite app_length in Lt; cbn in Lt; lia].
  change ((x :: run) ++ post) with (x :: run ++ post).
  rewrite pass_ok; [|exact Hp|exact F|rewrite app_length; cbn; rewrite app_length; lia].
  cbn [rbind orb]. destruct (Nat.ltb_spec 0 (swaps x run)).
  - pose proof (fpass_inv run x) as I. pose proof (fpass_perm run x) as P. pose proof (fun t => fpass_time t run x) as T.
    destruct (fpass x run) as [|x' run'] eqn:E; [apply Permutation_nil in P; discriminate|].
    destruct (IH x' run') as (r & R & (P' & S' & T')).
    + eapply Permutation_Forall; [symmetry; exact P|exact F].
    + lia.
    + exists r. split; [exact R|]. split; [rewrite P'; exact P|]. split; [exact S'|]. intros t. rewrite T'. apply T.
  - destruct (fpass_same run x ltac:(lia)) as [-> S]. exists (x :: run). split; [reflexivity|]. split; [reflexivity|]. split; [exact S|reflexivity].
Qed.

Lemma skip_pairs_ok : forall mid fuel pre post, Forall (fun s => is_id s = false) mid -> 
  match post with [] => True | s :: _ => is_id s = true end -> length mid < fuel ->
  skip_pairs fuel (pre ++ mid ++ post) (length pre) = Ok (length (pre ++ mid)).
Proof.
  induction mid as [|s mid IH]; intros fuel pre post F Hp L; (destruct fuel as [|fuel]; [lia|]); cbn [skip_pairs].
  - rewrite app_nil_r. cbn [app]. destruct post as [|s post].
    + rewrite app_nil_r, Nat.ltb_irrefl. reflexivity.
    + destruct (Nat.ltb_spec (length pre) (length (pre ++ s :: post))) as [_|Lt]; [|rewrite app_length in Lt; cbn in Lt; lia].
      rewrite get_app_mid. cbn [rbind]. rewrite Hp. reflexivity.
  - inversion F as [|? ? Fs Fr]; subst.
    destruct (Nat.ltb_spec (length pre) (length (pre ++ (s :: mid) ++ post))) as [_|Lt]; [|rewrite app_length in Lt; cbn in Lt; lia].
    cbn [app]. rewrite get_app_mid. cbn [rbind]. rewrite Fs.
    replace (pre ++ s :: mid ++ post) with ((pre ++ [s]) ++ mid ++ post) by (rewrite <- app_assoc; reflexivity).
    replace (length pre + 1) with (length (pre ++ [s])) by (rewrite app_length; reflexivity).
    rewrite IH; [|exact Fr|exact Hp|cbn in L; lia]. rewrite <- app_assoc. reflexivity.
Qed.
Lemma skip_run_ok : forall mid fuel pre post, Forall (fun s => is_id s = true) mid -> stops post -> length mid < fuel ->
  skip_run fuel (pre ++ mid ++ post) (length pre) = Ok (length (pre ++ mid)).
Proof.
  induction mid as [|s mid IH]; intros fuel pre post F Hp L; (destruct fuel as [|fuel]; [lia|]); cbn [skip_run].
  - rewrite app_nil_r. cbn [app]. destruct post as [|s post].
    + rewrite app_nil_r, Nat.ltb_irrefl. reflexivity.
    + destruct (Nat.ltb_spec (length pre) (length (pre ++ s :: post))) as [_|Lt]; [|rewrite app_length in Lt; cbn in Lt; lia].
      rewrite get_app_mid. cbn [rbind]. cbn [stops] in Hp. rewrite Hp. reflexivity.
  - inversion F as [|? ? Fs Fr]; subst.
    destruct (Nat.ltb_spec (length pre) (length (pre ++ (s :: mid) ++ post))) as [_|Lt]; [|rewrite app_length in Lt; cbn in Lt; lia].
    cbn [app]. rewrite get_app_mid. cbn [rbind]. rewrite Fs.
    replace (pre ++ s :: mid ++ post) with ((pre ++ [s]) ++ mid ++ post) by (rewrite <- app_assoc; reflexivity).
    replace (length pre + 1) with (length (pre ++ [s])) by (rewrite app_length; reflexivity).
    rewrite IH; [|exact Fr|exact Hp|cbn in L; lia]. rewrite <- app_assoc. reflexivity.
Qed.

(** the whole path: blocks of pairs and runs *)
Inductive blocks : list wstep -> list wstep -> Prop :=
| bl_nil : blocks [] []
| bl_pairs mid l l' : mid <> [] -> Forall (fun s => is_id s = false) mid -> 
    match l with [] => True | s :: _ => is_id s = true end -> blocks l l' -> blocks (mid ++ l) (mid ++ l')
| bl_run run run' l l' : run <> [] -> Forall id_ok run -> stops l -> time_sorted_from run run' -> blocks l l' -> blocks (run ++ l) (run' ++ l').

Lemma span (f : wstep -> bool) l : exists a b, l = a ++ b /\ Forall (fun s => f s = true) a /\ match b with [] => True | s :: _ => f s = false end.
Proof.
  induction l as [|s l IH]; [exists [], []; repeat split; constructor|].
  destruct (f s) eqn:E.
  - destruct IH as (a & b & -> & F & H). exists (s :: a), b. repeat split; auto.
  - exists [], (s :: l). repeat split; auto.
Qed.

Lemma run_split l : Forall (fun s => is_id s = true -> id_ok s) l ->
  exists run post, l = run ++ post /\ Forall id_ok run /\ stops post.
Proof.
  intros F. destruct (span is_id l) as (a & b & -> & Fa & Hb). exists a, b. split; [reflexivity|]. split; [|destruct b; [exact I|exact Hb]].
  apply Forall_app in F. destruct F as [F _]. rewrite Forall_forall in *. auto.
Qed.

Lemma ids_perm (run run' : list wstep) : Permutation run' run -> Forall id_ok run -> Forall (fun s => is_id s = true) run'.
Proof. intros P F. eapply Permutation_Forall; [symmetry; exact P|]. eapply Forall_impl; [|exact F]. intros a H; apply H. Qed.

Lemma sort_loop_ok : forall fuel suf pre, Forall (fun s => is_id s = true -> id_ok s) suf -> length suf < fuel ->
  exists suf', sort_loop fuel (pre ++ suf) (length pre) = Ok (pre ++ suf') /\ blocks suf suf' /\ length suf' = length suf.
Proof.
  induction fuel as [|fuel IH]; intros suf pre F L; [lia|]. cbn [sort_loop].
  destruct suf as [|s0 suf0].
  { rewrite app_nil_r, Nat.ltb_irrefl. exists []. rewrite app_nil_r. repeat split; constructor. }
  destruct (Nat.ltb_spec (length pre) (length (pre ++ s0 :: suf0))) as [_|Lt]; [|rewrite app_length in Lt; cbn in Lt; lia].
  set (suf := s0 :: suf0) in *.
  destruct (span (fun s => negb (is_id s)) suf) as (mid & rest & E & Fm & Hr).
  assert (Fm' : Forall (fun s => is_id s = false) mid) by (eapply Forall_impl; [|exact Fm]; cbn; intros a H; apply negb_true_iff; exact H).
  assert (Hr' : match rest with [] => True | s :: _ => is_id s = true end) by (destruct rest; [exact I|apply negb_false_iff; exact Hr]).
  assert (Frest : Forall (fun s => is_id s = true -> id_ok s) rest) by (rewrite E in F; apply Forall_app in F; apply F).
  rewrite E. rewrite skip_pairs_ok; [|exact Fm'|exact Hr'|rewrite !app_length; lia]. cbn [rbind].
  destruct (run_split rest Frest) as (run & post & -> & Fr & Hp).
  rewrite app_assoc.
  assert (R : exists run', passes (S (length ((pre ++ mid) ++ run ++ post) * length ((pre ++ mid) ++ run ++ post))) ((pre ++ mid) ++ run ++ post) (length (pre ++ mid))
              = Ok ((pre ++ mid) ++ run' ++ post) /\ time_sorted_from run run' /\ Forall (fun s => is_id s = true) run' /\ length run' = length run).
  { destruct run as [|x run].
    - destruct post as [|s post]; [|cbn [app stops] in Hr', Hp; congruence].
      exists []. cbn [passes app]. rewrite app_nil_r, Nat.ltb_irrefl. split; [reflexivity|]. repeat split; constructor.
    - destruct (passes_ok post (pre ++ mid) Hp (S (length ((pre ++ mid) ++ (x :: run) ++ post) * length ((pre ++ mid) ++ (x :: run) ++ post))) x run Fr) as (run' & R & T).
      { pose proof (inv_bound (x :: run)). assert (length (x :: run) <= length ((pre ++ mid) ++ (x :: run) ++ post)) by (rewrite !app_length; lia). nia. }
      exists run'. split; [exact R|]. split; [exact T|]. split; [eapply ids_perm; [apply T|exact Fr]|]. apply Permutation_length. apply T. }
  destruct R as (run' & -> & T & Fr' & Lr). cbn [rbind].
  rewrite skip_run_ok; [|exact Fr'|exact Hp|rewrite !app_length; lia]. cbn [rbind].
  rewrite (app_assoc (pre ++ mid)).
  assert (Lsuf : length suf = length mid + (length run + length post)) by (rewrite E, !app_length; lia).
  assert (Fpost : Forall (fun s => is_id s = true -> id_ok s) post) by (apply Forall_app in Frest; apply Frest).
  destruct (IH post ((pre ++ mid) ++ run') Fpost) as (post' & Q & B & Lp).
  { destruct mid; [destruct run|]; cbn [length app] in *; try lia.
    (* both empty: the suffix would be empty *)
    destruct post as [|s post]; [unfold suf in E; discriminate|]. cbn [app stops] in Hr', Hp. congruence. }
  rewrite Q. exists (mid ++ run' ++ post'). split; [rewrite <- !app_assoc; reflexivity|]. split.
  - assert (B1 : blocks (run ++ post) (run' ++ post')).
    { destruct run as [|x run]; [destruct run'; [exact B|discriminate]|]. apply bl_run; auto. discriminate. }
    destruct mid as [|m mid]; [exact B1|]. apply bl_pairs; auto; [discriminate].
  - rewrite !app_length. lia.
Qed.

(** reading the result off *)
Lemma blocks_nonid l l' : blocks l l' -> length l' = length l /\ forall i s, nth_error l i = Some s -> is_id s = false -> nth_error l' i = Some s.
Proof.
  induction 1 as [|mid l l' N F H B [Le IH]|run run' l l' N F H T B [Le IH]].
  - split; [reflexivity|]. intros [|] s H; discriminate.
  - split; [rewrite !app_length; lia|]. intros i s Hs Hi. destruct (Nat.lt_ge_cases i (length mid)).
    + rewrite nth_error_app1 in * by lia. exact Hs.
    + rewrite nth_error_app2 in * by lia. apply IH; assumption.
  - assert (Lr : length run' = length run) by (apply Permutation_length; apply T); unfold wstep in *.
    split; [rewrite !app_length; lia|]. intros i s Hs Hi. destruct (Nat.lt_ge_cases i (length run)).
    + rewrite nth_error_app1 in Hs by lia. apply nth_error_In in Hs. rewrite Forall_forall in F. apply F in Hs. destruct Hs. congruence.
    + rewrite nth_error_app2 in Hs by lia. rewrite nth_error_app2 by lia. rewrite Lr. apply IH; assumption.
Qed.

Lemma blocks_run l l' : blocks l l' -> forall pre run post, l = pre ++ run ++ post -> run <> [] -> maximal pre run post ->
  exists pre' run' post', l' = pre' ++ run' ++ post' /\ length pre' = length pre /\ length post' = length post /\ time_sorted_from run run'.
Proof.
  induction 1 as [|mid l l' N F H B IH|run0 run0' l l' N F H T B IH]; intros pre run post E Nr M.
  - destruct pre, run; try discriminate. contradiction.
  - (* mid ++ l: the run lies in l *)
    destruct M as (M1 & M2 & M3).
    assert (Lm : length mid <= length pre).
    { destruct (Nat.le_gt_cases (length mid) (length pre)) as [|G]; [assumption|exfalso].
      destruct run as [|r run]; [contradiction|]. inversion M1 as [|? ? Mr _]; subst.
      assert (X : nth_error (mid ++ l) (length pre) = Some r) by (rewrite E, nth_error_app2, Nat.sub_diag by lia; reflexivity).
      rewrite nth_error_app1 in X by lia. apply nth_error_In in X. rewrite Forall_forall in F. apply F in X.
      apply id_single in Mr. congruence. }
    assert (Ep : exists p, pre = mid ++ p /\ l = p ++ run ++ post).
    { clear - E Lm. revert pre E Lm. induction mid as [|m mid IHm]; intros pre E Lm; [exists pre; auto|].
      destruct pre as [|p pre]; [cbn in Lm; lia|]. cbn in E. injection E as -> E. destruct (IHm pre E ltac:(cbn in Lm; lia)) as (q & -> & ->).
      exists q. auto. }
    destruct Ep as (p & -> & El).
    destruct (IH p run post El Nr) as (p' & r' & q' & -> & L1 & L2 & T).
    { split; [exact M1|]. split; [|exact M3]. destruct M2 as [M2|(q & s & M2 & Ms)].
      - apply app_eq_nil in M2. left. apply M2.
      - destruct p as [|z p] using rev_ind; [left; reflexivity|]. right. clear IHp. exists p, z. split; [reflexivity|].
        rewrite app_assoc in M2. apply app_inj_tail in M2. destruct M2 as [_ <-]. exact Ms. }
    exists (mid ++ p'), r', q'. rewrite <- app_assoc. split; [reflexivity|]. split; [rewrite !app_length; lia|]. auto.
  - destruct M as (M1 & M2 & M3).
    assert (Lr0 : length run0' = length run0) by (apply Permutation_length; apply T); unfold wstep in *.
    destruct (Nat.eq_dec (length pre) 0) as [Z|Z].
    + (* the run is this block *)
      destruct pre; [|discriminate]. cbn [app] in E.
      assert (Eq : run0 = run /\ l = post).
      { assert (Fi : Forall (fun s => is_id s = true) run0) by (eapply Forall_impl; [|exact F]; intros a K; apply K).
        assert (Fr : Forall (fun s => is_id s = true) run) by (eapply Forall_impl; [|exact M1]; intros a K; apply id_single; exact K).
        assert (Sp : stops post). { destruct M3 as [->|(s & p & -> & Ms)]; [exact I|]. cbn. apply id_pair. exact Ms. }
        clear - E H Fi Fr Sp. revert run E Fr. induction run0 as [|a run0 IH]; intros run E Fr.
        - destruct run as [|b run]; [auto|]. cbn in E. subst l. cbn [stops] in H. inversion Fr; subst. congruence.
        - inversion Fi as [|? ? Fa Fi']; subst. destruct run as [|b run].
          + cbn in E. subst post. cbn [stops] in Sp. congruence.
          + cbn in E. injection E as -> E. inversion Fr as [|? ? Fb Fr']; subst. destruct (IH Fi' run E Fr') as [-> ->]. auto. }
      destruct Eq as [-> ->]. exists [], run0', l'. split; [reflexivity|]. split; [reflexivity|]. split; [|exact T].
      apply (blocks_nonid _ _ B).
    + (* the run lies in l: pre ends with a pair, which is not in this block *)
      destruct M2 as [->|(q & s & -> & Ms)]; [cbn in Z; lia|].
      assert (Lm : length run0 <= length (q ++ [s])).
      { destruct (Nat.le_gt_cases (length run0) (length (q ++ [s]))) as [|G]; [assumption|exfalso].
        rewrite app_length in G. cbn in G.
        assert (X : nth_error (run0 ++ l) (length q) = Some s) by (rewrite E, <- app_assoc, nth_error_app2, Nat.sub_diag by lia; reflexivity).
        rewrite nth_error_app1 in X by lia. apply nth_error_In in X. rewrite Forall_forall in F. apply F in X.
        apply id_pair in Ms. destruct X. congruence. }
      assert (Ep : exists p, q ++ [s] = run0 ++ p /\ l = p ++ run ++ post).
      { clear - E Lm. revert E Lm. generalize (q ++ [s]) as pre. induction run0 as [|m mid IHm]; intros pre E Lm; [exists pre; auto|].
        destruct pre as [|p pre]; [cbn in Lm; lia|]. cbn in E. injection E as -> E. destruct (IHm pre E ltac:(cbn in Lm; lia)) as (q' & -> & ->).
        exists q'. auto. }
      destruct Ep as (p & Eq & El).
      destruct (IH p run post El Nr) as (p' & r' & q' & -> & L1 & L2 & T').
      { split; [exact M1|]. split; [|exact M3]. destruct p as [|z p] using rev_ind; [left; reflexivity|]. right. clear IHp. exists p, z. split; [reflexivity|].
        rewrite app_assoc in Eq. apply app_inj_tail in Eq. destruct Eq as [_ <-]. exact Ms. }
      exists (run0' ++ p'), r', q'. rewrite <- app_assoc. split; [reflexivity|]. split; [rewrite Eq, !app_length; lia|]. auto.
Qed.
