(** Linear networks and traversals. *)
From Coq Require Import List ZArith Arith Bool Lia.
From Verif Require Import Base Net_Model Net_Spec Net_Proofs1 Net_Proofs2 Net_Proofs3.
Import ListNotations.

(** Any history of additions at the two ends gives a network with exactly one path from start to
    stop, and that path carries the words of the list built by the same history. *)
Theorem C51_linear_networks_are_word_lists : forall (D : Type) (os : list (@end_op D)),
  let N := fold_left net_run1 os net_init in
  let l := fold_left list_run1 os [] in
  wf_net N /\
  match os with
  | [] => n_stop N = None
  | _ => exists t xs, n_stop N = Some t /\ npath N (n_start N) xs t /\ map (n_data N) xs = map Some l /\
           forall ys, npath N (n_start N) ys t -> ys = xs
  end.
Proof.
  intros D os N l. pose proof (runs_linear os net_init [] init_linear) as H. fold N l in H. destruct H as [W H]. split; [exact W|].
  destruct os as [|o os]; [reflexivity|].
  assert (Hl : l <> []).
  { unfold l. cbn [fold_left]. assert (G : forall os (l0 : list D), l0 <> [] -> fold_left list_run1 os l0 <> []).
    { clear. induction os as [|o os IH]; intros l0 H0; [exact H0|]. cbn. apply IH. destruct o; cbn; [discriminate|].
      destruct l0; discriminate. }
    apply G. destruct o; discriminate. }
  destruct (n_stop N) as [t|] eqn:E; [|contradiction].
  destruct H as (_ & xs & H1 & H2 & H3). exists t, xs. auto.
Qed.

(** The words of a network after an addition at an end, whatever the network. *)
Theorem C51_additions_at_the_ends : forall (D : Type) (N : net D) (d : option D), wf_net N ->
  (wf_net (add_head N d) /\ forall ws, nsays (add_head N d) ws <-> exists ws', ws = d :: ws' /\ nsays N ws') /\
  (wf_net (add_tail N d) /\ forall ws, nsays (add_tail N d) ws <-> exists ws', ws = ws' ++ [d] /\ nsays N ws').
Proof. exact (@ends_says). Qed.

(** Every traversal reports every arc of the network exactly once. *)
Theorem C56_traversal_visits_every_arc_once : forall (D : Type) (m : mode) (N : net D) fuel, wf_net N -> n_nodes N < fuel ->
  exists l, traverse_arcs m fuel N = Ok l /\ NoDup l /\ forall x, In x l <-> exists u, In x (n_out N u).
Proof.
  intros D m N fuel W Hf. destruct m.
  - apply traverse_arcs_plain; [exact W|discriminate|exact Hf].
  - apply traverse_arcs_plain; [exact W|discriminate|exact Hf].
  - destruct (traverse_arcs_inorder N W fuel Hf) as (l & H1 & H2 & H3 & _). exists l. auto.
Qed.

(** The in-order traversal reports an arc after all the arcs that enter its first node. *)
Theorem C56_inorder_is_topological : forall (D : Type) (N : net D) fuel l pre x post, wf_net N -> n_nodes N < fuel ->
  traverse_arcs Inorder fuel N = Ok l -> l = pre ++ x :: post ->
  forall y, n_to N y = n_from N x -> In y (n_out N (n_from N y)) -> In y pre.
Proof.
  intros D N fuel l pre x post W Hf H E y Hy Hin.
  destruct (traverse_arcs_inorder N W fuel Hf) as (l' & H1 & H2 & H3 & H4 & _). rewrite H1 in H. injection H as ->.
  apply (H4 pre x post E). rewrite <- Hy. apply (wf_out N W y _ Hin).
Qed.

(** The words 10 20 30 40 with a way to skip the first three. *)
Definition skip_net : net nat :=
  insert_between (fold_left net_run1 [AtTail 10; AtTail 20; AtTail 30; AtTail 40] net_init) 0 4 (Some 50).
Lemma skip_net_wf : wf_net skip_net.
Proof.
  unfold skip_net. destruct (runs_linear [AtTail 10; AtTail 20; AtTail 30; AtTail 40] (@net_init nat) [] init_linear) as [W _].
  apply btw_wf; [exact W| | | |].
  - exists []. constructor.
  - exists 1, [3]. split; [reflexivity|]. apply npath_one. cbn. auto.
  - cbn. lia.
  - exists (fun w => match w with 0 => 0 | 2 => 1 | 3 => 2 | 4 => 3 | _ => 4 end). split; [|cbn; lia].
    intros x w H. cbn in H |- *.
    destruct w as [|[|[|[|[|w]]]]]; cbn in H; try (destruct H as [<-|[]]; cbn; lia); try contradiction.
Qed.

(** Arcs reported breadth first need not be in such an order. *)
Theorem C56_breadth_first_is_not_topological_refuted : exists (N : net nat) l pre x post y, wf_net N /\
  traverse_arcs Breadth 10 N = Ok l /\ l = pre ++ x :: post /\ n_to N y = n_from N x /\ In y (n_out N (n_from N y)) /\ ~ In y pre.
Proof.
  exists skip_net, [0; 4; 1; 3; 2], [0; 4; 1], 3, [2], 2. split; [exact skip_net_wf|]. repeat split; cbn; auto.
  intros [H|[H|[H|[]]]]; discriminate.
Qed.

Example C51_case : let N := fold_left net_run1 [AtTail 1; AtHead 2; AtTail 3] (@net_init nat) in
  exists xs, npath N (n_start N) xs 1 /\ map (n_data N) xs = [Some 2; Some 1; Some 3].
Proof. exists [1; 0; 2]. split; [|reflexivity]. do 3 (econstructor; [cbn; auto|cbn]). constructor. Qed.
Example C51_ends_case : wf_net skip_net /\ nsays skip_net [Some 50; Some 40].
Proof.
  split; [exact skip_net_wf|]. exists [4; 3]. split; [|reflexivity]. econstructor; [cbn; auto|]. econstructor; [cbn; auto|]. constructor.
Qed.
Example C56_case : wf_net skip_net /\ traverse_arcs Inorder 10 skip_net = Ok [0; 4; 1; 2; 3] /\
  traverse_arcs Depth 10 skip_net = Ok [0; 4; 3; 1; 2].
Proof. split; [exact skip_net_wf|]. split; reflexivity. Qed.

Print Assumptions C51_linear_networks_are_word_lists.
Print Assumptions C51_additions_at_the_ends.
Print Assumptions C56_traversal_visits_every_arc_once.
Print Assumptions C56_inorder_is_topological.
