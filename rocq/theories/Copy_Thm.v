(** C76: the copy of a word network. *)
From Coq Require Import List Arith Bool Lia.
From Verif Require Import Base Net_Model Net_Spec Net_Proofs1 Net_Proofs2 Net_Thm Merge_Model Merge_Thm NetDp_Spec Copy_Model Copy_Spec Net_Proofs3 Copy_Proofs2.
Import ListNotations.

(** The copy is made without an error; it has a node for each node and an arc for each arc, with
    the copied word, and it is well formed. *)
Theorem C76_shape : forall (D : Type) (copy : D -> D) (N : net D), wf_net N -> no_null_data N ->
  exists C f g, copy_net copy N = Ok C /\ wf_net C /\ same_shape copy N C f g.
Proof. intros. now apply copy_ok. Qed.
Print Assumptions C76_shape.

(** The sequences of words of the copy are the copies of the sequences of the original. *)
Theorem C76_words : forall (D : Type) (copy : D -> D) (N : net D), wf_net N -> no_null_data N ->
  exists C, copy_net copy N = Ok C /\
  forall ws, nsays C ws <-> exists vs, nsays N vs /\ ws = map (option_map copy) vs.
Proof.
  intros D copy N W NN. destruct (copy_ok copy N W NN) as (C & f & g & E & _ & SS). exists C. split; [exact E|].
  intros ws. exact (shape_says copy N W C f g SS ws).
Qed.
Print Assumptions C76_words.

(** It has as many arcs in use as the original: they correspond one to one, and so do the arcs
    leaving each node. *)
Theorem C76_one_to_one : forall (D : Type) (copy : D -> D) (N : net D), wf_net N -> no_null_data N ->
  exists C (g : nat -> nat), copy_net copy N = Ok C /\
  (forall y, (exists p, In y (n_out C p)) <-> exists x, (exists u, In x (n_out N u)) /\ y = g x) /\
  (forall x x' u u', In x (n_out N u) -> In x' (n_out N u') -> (g x = g x' -> x = x') /\
     (n_from C (g x) = n_from C (g x') <-> u = u') /\ (n_to C (g x) = n_to C (g x') <-> n_to N x = n_to N x')).
Proof.
  intros D copy N W NN. destruct (copy_ok copy N W NN) as (C & f & g & E & WC & SS). exists C, g. split; [exact E|]. split.
  - intros y. split.
    + intros (p & I). destruct (ss_all _ _ _ _ _ SS y p I) as (x & u & I' & -> & _). eauto.
    + intros (x & (u & I) & ->). exists (f u). apply (ss_arcs _ _ _ _ _ SS x u I).
  - intros x x' u u' I I'. destruct (ss_arcs _ _ _ _ _ SS x u I) as (J & T & _). destruct (ss_arcs _ _ _ _ _ SS x' u' I') as (J' & T' & _).
    rewrite (proj1 (wf_out C WC _ _ J)), (proj1 (wf_out C WC _ _ J')), T, T'.
    split; [apply (ss_names _ _ _ _ _ SS x x' u u' I I')|]. pose proof (wf_reach N W x u I) as R. pose proof (wf_reach N W x' u' I') as R'.
    split; (split; [|congruence]); apply (ss_nodes _ _ _ _ _ SS); try assumption.
    + apply (reachable_step N u); assumption.
    + apply (reachable_step N u'); assumption.
Qed.
Print Assumptions C76_one_to_one.

(** With an arc that has no word the copy is another network: its null arc is removed with those
    the copying itself adds. *)
Theorem C76_null_refuted : exists (N C : net nat), wf_net N /\ copy_net (fun d => d) N = Ok C /\
  nsays N [Some 1; None; Some 2] /\ nsays C [Some 1; Some 2] /\ ~ nsays N [Some 1; Some 2].
Proof.
  set (N := add_tail (add_tail (add_tail (@net_init nat) (Some 1)) None) (Some 2)).
  assert (F : match copy_net (fun d => d) N with
    | Ok C => (n_start C, n_stop C, n_out C 0, n_out C 2, n_to C 0, n_to C 4, map (n_data C) [0; 4]) = (0, Some 1, [0], [4], 2, 1, [Some 1; Some 2])
    | _ => False end) by (vm_compute; reflexivity).
  assert (W : wf_net N) by (unfold N; do 3 apply tail_says; apply wf_init).
  destruct (copy_net (fun d => d) N) as [C| | |] eqn:E; try contradiction. exists N, C. split; [exact W|]. split; [exact E|].
  injection F as F1 F2 F3 F4 F5 F6 F7 F8. split; [|split].
  - exists [0; 1; 2]. split; [|reflexivity]. repeat (econstructor; [left; reflexivity|]). constructor.
  - unfold nsays. rewrite F1, F2. exists [0; 4]. split; [|cbn [map]; now rewrite F7, F8].
    constructor; [rewrite F3; now left|]. rewrite F5. constructor; [rewrite F4; now left|]. rewrite F6. constructor.
  - intros (xs & P & E'). destruct xs as [|a [|b [|c xs]]]; try discriminate E'.
    apply npath_cons_inv in P. destruct P as [[<-|[]] P]. apply npath_cons_inv in P. destruct P as [[<-|[]] P]. discriminate E'.
Qed.
Print Assumptions C76_null_refuted.

(** ** Examples *)
(** 10 20 30 40 with 50 beside the first three: the nodes and arcs are renamed, the words are
    copied (here: raised by one). *)
Example C76_case : wf_net skip_net /\ no_null_data skip_net /\
  match copy_net S skip_net with
  | Ok C => (n_start C, n_stop C, map (fun p => (n_out C p, map (n_to C) (n_out C p), map (n_data C) (n_out C p))) [0; 2; 5; 11]) =
      (0, Some 1, [([0; 2], [2; 5], [Some 11; Some 51]); ([6], [11], [Some 21]); ([4], [1], [Some 41]); ([8], [5], [Some 31])])
  | _ => False
  end.
Proof.
  split; [exact skip_net_wf|]. split; [|vm_compute; reflexivity]. intros x u H. cbn in H |- *.
  destruct u as [|[|[|[|[|u]]]]]; cbn in H; try contradiction; repeat (destruct H as [<-|H]; [discriminate|]); destruct H.
Qed.
