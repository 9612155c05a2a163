(** C38 sorting a path by time marks, C47 the growth of a path. *)
From Coq Require Import List Arith ZArith Bool Permutation Sorted Lia.
From Verif Require Import Base NetDp_Model Word_Model Order_Model Path_Model Path_Spec Path_Proofs.
Import ListNotations.
Local Open Scope res_scope.
Local Open Scope nat_scope.

(** * C47 *)
Definition op_of {A} (o : stack_op A) : path_op A := match o with Push x => Append x | Pop => Remove end.

(** From any requested size, any history of appends and removals ends without a write outside the
    array; the cells in use are exactly the entries appended and not removed, in order. *)
Theorem C47_entries : forall (A : Type) (size : Z) (ops : list (stack_op A)),
  exists p0 p, path_alloc size = Ok p0 /\ path_run p0 (map op_of ops) = Ok p
    /\ p_num p = length (stack_after [] ops)
    /\ firstn (p_num p) (p_pset p) = map Some (stack_after [] ops)
    /\ p_num p <= length (p_pset p)
    /\ length (p_pset p0) <= length (p_pset p) /\ (size <= Z.of_nat (length (p_pset p0)))%Z.
Proof.
  intros A size ops. destruct (alloc_holds (A := A) size) as (p0 & E & H & Sz). exists p0.
  assert (G : forall ops (p : path A) l, holds p l -> exists p', path_run p (map op_of ops) = Ok p' /\ holds p' (stack_after l ops) /\ length (p_pset p) <= length (p_pset p')).
  { clear. induction ops as [|[x|] ops IH]; intros p l H; cbn [map op_of path_run stack_after].
    - exists p. auto.
    - destruct (append_holds p l x H) as (p1 & -> & H1 & L1). cbn [rbind]. destruct (IH p1 _ H1) as (p2 & R & H2 & L2).
      exists p2. split; [exact R|]. split; [exact H2|lia].
    - destruct (IH _ _ (remove_holds p l H)) as (p2 & R & H2 & L2). exists p2. split; [exact R|]. split; [exact H2|exact L2]. }
  destruct (G ops p0 [] H) as (p & R & (N & L & F & M) & Le). exists p. split; [exact E|]. split; [exact R|].
  split; [exact N|]. rewrite N. split; [exact F|]. split; [exact L|]. split; [exact Le|]. lia.
Qed.
Print Assumptions C47_entries.

(** * C38 *)
Theorem C38_runs_sorted : forall l, Forall well_formed_step l ->
  exists l', sort_time_marks l = Ok l'
    /\ length l' = length l
    /\ (forall i s, nth_error l i = Some s -> pair_step s -> nth_error l' i = Some s)
    /\ (forall pre run post, l = pre ++ run ++ post -> run <> [] -> maximal pre run post ->
        exists pre' run' post', l' = pre' ++ run' ++ post'
          /\ length pre' = length pre /\ length post' = length post /\ time_sorted_from run run').
Proof.
  intros l W. destruct (sort_loop_ok (S (length l)) l []) as (l' & E & B & L).
  - eapply Forall_impl; [|exact W]. intros s Ws Is. apply id_ok_of; [exact Ws|apply id_single; exact Is].
  - unfold wstep in *; lia.
  - exists l'. split; [exact E|]. split; [exact L|]. split.
    + intros i s Hs Ps. apply (proj2 (blocks_nonid _ _ B)); [exact Hs|apply id_pair; exact Ps].
    + apply blocks_run. exact B.
Qed.
Print Assumptions C38_runs_sorted.

(** The words of the path are kept: every step is there as often as before. *)
Theorem C38_permutation : forall l, Forall well_formed_step l ->
  exists l', sort_time_marks l = Ok l' /\ Permutation l' l.
Proof.
  intros l W. destruct (sort_loop_ok (S (length l)) l []) as (l' & E & B & L).
  - eapply Forall_impl; [|exact W]. intros s Ws Is. apply id_ok_of; [exact Ws|apply id_single; exact Is].
  - unfold wstep in *; lia.
  - exists l'. split; [exact E|]. clear - B. induction B as [|mid l l' N F H B IH|run run' l l' N F H T B IH].
    + constructor.
    + apply Permutation_app_head. exact IH.
    + apply Permutation_app; [apply T|exact IH].
Qed.
Print Assumptions C38_permutation.

Definition word_at (t : Z) : word :=
  {| w_value := []; w_intern := None; w_opt_del := false; w_frag := false; w_t1 := t; w_t2 := t; w_dur := 0%Z; w_weight := 0%Z |}.
Definition ins (t : Z) : wstep := (None, Some (word_at t), PIns).
Definition del (t : Z) : wstep := (Some (word_at t), None, PDel).
Definition cor (t : Z) : wstep := (Some (word_at t), Some (word_at t), PCorr).

(** Refuted: the pairs do not move, so the whole path need not be in order of time afterwards. *)
Theorem C38_whole_path_refuted : exists l, Forall well_formed_step l /\ sort_time_marks l = Ok l
  /\ ~ StronglySorted (fun s s' => (begin_time s <= begin_time s')%Z) l.
Proof.
  exists [ins 5; cor 3; del 2]. split; [repeat constructor; cbn; try split; try reflexivity; discriminate|]. split; [vm_compute; reflexivity|].
  intros H. inversion H as [|? ? ? F]; subst. inversion F as [|? ? K]; subst. cbn in K. lia.
Qed.
Print Assumptions C38_whole_path_refuted.

Example C38_case : sort_time_marks [ins 9; del 4; ins 4; del 1; cor 2; ins 3; del 7; ins 5]
    = Ok [del 1; del 4; ins 4; ins 9; cor 2; ins 3; ins 5; del 7]
  /\ Forall well_formed_step [ins 9; del 4; ins 4; del 1; cor 2; ins 3; del 7; ins 5]
  /\ maximal [] [ins 9; del 4; ins 4; del 1] [cor 2; ins 3; del 7; ins 5].
Proof.
  split; [vm_compute; reflexivity|]. split; [repeat constructor; cbn; try split; try reflexivity; discriminate|].
  split; [repeat (apply Forall_cons; [unfold single_step; cbn; auto|]); apply Forall_nil|]. split; [left; reflexivity|].
  right. exists (cor 2), [ins 3; del 7; ins 5]. split; [reflexivity|left; reflexivity].
Qed.
Example C47_case : exists p, (let* p := path_alloc (-3) in path_run p (map op_of [Push 1; Push 2; Push 3; Pop; Push 4; Push 5; Push 6; Push 7])) = Ok p
  /\ firstn (p_num p) (p_pset p) = map Some [1; 2; 4; 5; 6; 7] /\ length (p_pset p) = 10.
Proof. eexists. vm_compute. repeat split; reflexivity. Qed.
