(** C72, C73: networks joined with networks, arcs deleted, networks destroyed. *)
From Coq Require Import List ZArith Arith Bool Lia.
From Verif Require Import Base Net_Model Net_Spec Net_Proofs1 Net_Proofs3 Merge_Model Merge_Spec Merge_Proofs2 Merge_Proofs3.
Import ListNotations.

Section Thm.
Context {D : Type}.
Implicit Types N M : net D.

(** C72: merging [M] between two nodes of [N] that a path joins keeps the word sequences of [N]
    and adds those that take a word sequence of [M] from the first node to the second. *)
Theorem C72_merge : forall N M u v, wf_net N -> wf_net M -> n_stop M <> None ->
  (exists xs, xs <> [] /\ npath N u xs v) ->
  exists N', merge N u v M = Ok N' /\ wf_net N' /\
    forall ws, nsays N' ws <->
      nsays N ws \/
      exists xs ps zs t, npath N (n_start N) xs u /\ nsays M ps /\ n_stop N = Some t /\ npath N v zs t /\
        ws = map (n_data N) xs ++ ps ++ map (n_data N) zs.
Proof.
  intros N M u v WN WM EM PUV. destruct (n_stop M) as [tm|] eqn:E; [|congruence]. unfold merge. rewrite E. eexists. split; [reflexivity|].
  split; [apply merge_at_wf; assumption|]. intros ws. rewrite merge_at_says by assumption. split.
  - intros [H|(xs & ps & zs & A & B & (t & C & F) & ->)]; [auto|]. right. exists xs, ps, zs, t. auto.
  - intros [H|(xs & ps & zs & t & A & B & C & F & ->)]; [auto|]. right. exists xs, ps, zs. eauto 6.
Qed.

(** Two networks beside each other have the word sequences of both. *)
Theorem C72_beside : forall N M, wf_net N -> wf_net M -> n_stop N <> None -> n_stop M <> None ->
  exists N', beside N M = Ok N' /\ wf_net N' /\ n_stop N' <> None /\ (forall ws, nsays N' ws <-> nsays N ws \/ nsays M ws).
Proof.
  intros N M WN WM EN EM. destruct (n_stop N) as [t|] eqn:E1; [|congruence]. destruct (n_stop M) as [tm|] eqn:E2; [|congruence].
  destruct (beside_ok N M t tm WN WM E1 E2) as (N' & A & B & C & F). exists N'. split; [exact A|]. split; [exact B|]. split; [congruence|exact F].
Qed.

(** An arc replaced by a network: the word of the arc gives way to a word sequence of [M]. *)
Theorem C72_replace : forall N M x, wf_net N -> wf_net M -> n_stop M <> None -> arc_of N x ->
  exists N', replace_arc N x M = Ok N' /\ wf_net N' /\
    forall ws, nsays N' ws <->
      exists xs, full N xs /\ ((~ In x xs /\ ws = map (n_data N) xs) \/
        (exists l r ps, xs = l ++ x :: r /\ nsays M ps /\ ws = map (n_data N) l ++ ps ++ map (n_data N) r)).
Proof.
  intros N M x WN WM EM AX. destruct (n_stop M) as [tm|] eqn:E; [|congruence]. eexists. split; [apply rp_eq, E|].
  split; [apply rp_wf; assumption|]. apply rp_says; assumption.
Qed.

(** A network after another, or before it: the word sequences are concatenated. *)
Theorem C72_tail : forall N M, wf_net N -> wf_net M -> n_stop M <> None ->
  exists N', add_net_tail N M = Ok N' /\ wf_net N' /\ (forall ws, nsays N' ws <-> exists a b, nsays N a /\ nsays M b /\ ws = a ++ b).
Proof.
  intros N M WN WM EM. destruct (n_stop M) as [tm|] eqn:E; [|congruence]. destruct (tail_net N M tm WN WM E) as (N' & A & B & _ & C). eauto.
Qed.
Theorem C72_head : forall N M, wf_net N -> wf_net M -> n_stop M <> None ->
  exists N', add_net_head N M = Ok N' /\ wf_net N' /\ (forall ws, nsays N' ws <-> exists a b, nsays M a /\ nsays N b /\ ws = a ++ b).
Proof.
  intros N M WN WM EM. destruct (n_stop M) as [tm|] eqn:E; [|congruence]. destruct (head_net N M tm WN WM E) as (N' & A & B & _ & C). eauto.
Qed.
(** A network without words cannot be joined to another: its stop node is a null pointer. *)
Theorem C72_empty_refuted : forall N M x u v, n_stop M = None ->
  merge N u v M = Undef /\ replace_arc N x M = Undef /\ (n_stop N <> None -> beside N M = Undef) /\ (wf_net N -> add_net_tail N M = Undef /\ add_net_head N M = Undef).
Proof.
  intros N M x u v E. assert (ME : forall N0 a b, merge N0 a b M = Undef) by (intros; unfold merge; rewrite E; reflexivity).
  split; [apply ME|]. split; [unfold replace_arc; rewrite ME; reflexivity|]. split.
  - intros NN. unfold beside. destruct (n_stop N); [apply ME|congruence].
  - intros W. split.
    + destruct (tail_facts N W) as (t1 & S & I1 & _). unfold add_net_tail. rewrite S, I1, ME. reflexivity.
    + destruct (head_facts N W) as (_ & O1 & _). unfold add_net_head. rewrite O1, ME. reflexivity.
Qed.

(** C73: deleting an arc leaves a well formed network with all the other arcs, with the data they
    had. *)
Theorem C73_arcs : forall N x, wf_net N -> arc_of N x ->
  wf_net (delete_arc N x) /\ (forall y, arc_of (delete_arc N x) y <-> arc_of N y /\ y <> x) /\ n_data (delete_arc N x) = n_data N.
Proof.
  intros N x W A. split; [apply del_wf; assumption|]. split; [intros y; apply del_arcs; assumption|]. unfold delete_arc. destruct (empty _); [destruct (is_stop _ _); [destruct (negb _)|]|]; cbv zeta.
  all: match goal with |- n_data (if ?c then _ else _) = _ => destruct c end; try reflexivity; match goal with |- n_data (if ?c then _ else _) = _ => destruct c end; reflexivity.
Qed.
(** With other arcs on both sides, the paths through the arc are gone and no others. *)
Theorem C73_delete : forall N x, wf_net N -> arc_of N x -> ~ alone N x ->
  forall ws, nsays (delete_arc N x) ws <-> exists xs, full N xs /\ ~ In x xs /\ ws = map (n_data N) xs.
Proof. intros N x W A NA ws. apply del_beside_says; assumption. Qed.
(** An arc that is the only one on a side is contracted: its word drops out of the sequences. *)
Theorem C73_contract : forall N x, wf_net N -> arc_of N x -> alone N x ->
  forall ws, nsays (delete_arc N x) ws <-> exists xs, full N xs /\ ws = map (n_data N) (without x xs).
Proof. intros N x W A AL ws. apply del_alone_says; assumption. Qed.
(** Destroying a network deletes each of its arcs once and ends. *)
Theorem C73_destroy : forall N L, wf_net N -> NoDup L -> (forall y, arc_of N y <-> In y L) ->
  exists N', destroy (length L) N = Ok (length L, N') /\ (forall y, ~ arc_of N' y) /\ n_stop N' = None.
Proof.
  intros N L W ND HL. destruct (destroy_ok (length L) N L W ND HL (le_n _)) as (N' & A & _ & B & C). exists N'. split; [exact A|]. split; [|exact C].
  intros y (a & I). rewrite B in I. destruct I.
Qed.
End Thm.
Print Assumptions C72_merge.
Print Assumptions C72_beside.
Print Assumptions C72_replace.
Print Assumptions C72_tail.
Print Assumptions C72_head.
Print Assumptions C72_empty_refuted.
Print Assumptions C73_arcs.
Print Assumptions C73_delete.
Print Assumptions C73_contract.
Print Assumptions C73_destroy.

(** "Deleting an arc takes away the paths through it" is false: a b with b deleted still says a. *)
Definition chain (l : list nat) : net nat := fold_left (fun N d => add_tail N (Some d)) l net_init.
Lemma chain_wf l : wf_net (chain l).
Proof.
  unfold chain. generalize (@wf_init nat). generalize (@net_init nat). induction l as [|d l IH]; intros N W; [exact W|]. cbn [fold_left]. apply IH. apply (tail_says N (Some d) W).
Qed.
Theorem C73_paths_refuted : exists (N : net nat) x, wf_net N /\ arc_of N x /\ (forall xs, full N xs -> In x xs) /\ nsays (delete_arc N x) [Some 1].
Proof.
  exists (chain [1; 2]), 1. pose proof (chain_wf [1; 2]) as W. assert (F : full (chain [1; 2]) [0; 1]).
  { exists 1. split; [reflexivity|]. constructor; [left; reflexivity|]. constructor; [left; reflexivity|]. constructor. }
  assert (A : arc_of (chain [1; 2]) 1) by (exists 2; left; reflexivity). split; [exact W|]. split; [exact A|]. split.
  - intros xs (t & E & P). injection E as <-. destruct xs as [|x xs]; [apply npath_nil in P; discriminate|]. apply npath_cons_inv in P. destruct P as [[<-|[]] P]. right.
    destruct xs as [|y xs]; [apply npath_nil in P; discriminate|]. apply npath_cons_inv in P. destruct P as [[<-|[]] P]. left. reflexivity.
  - apply C73_contract; [exact W|exact A|left; reflexivity|]. exists [0; 1]. split; [exact F|]. reflexivity.
Qed.
Print Assumptions C73_paths_refuted.

(** ** Examples *)
Definition two_ways : net nat := merge_at (chain [1; 2; 3]) 2 3 (chain [7; 8]) 1.
Example chain_shape : map (n_to (chain [1; 2; 3])) [0; 1; 2] = [2; 3; 1].
Proof. reflexivity. Qed.
(** 1 2 3 with 7 8 beside 2: both sequences. *)
Example C72_merge_ex : exists N', merge (chain [1; 2; 3]) 2 3 (chain [7; 8]) = Ok N' /\ nsays N' [Some 1; Some 7; Some 8; Some 3] /\ nsays N' [Some 1; Some 2; Some 3].
Proof.
  destruct (C72_merge (chain [1; 2; 3]) (chain [7; 8]) 2 3 (chain_wf _) (chain_wf _)) as (N' & E & _ & H); [discriminate| |].
  - exists [1]. split; [congruence|]. apply npath_one. split; [left; reflexivity|reflexivity].
  - exists N'. split; [exact E|]. split; apply H.
    + right. exists [0], [Some 7; Some 8], [2], 1. split; [apply npath_one; split; [left; reflexivity|reflexivity]|].
      split; [exists [0; 1]; split; [|reflexivity]; constructor; [left; reflexivity|]; constructor; [left; reflexivity|]; constructor|].
      split; [reflexivity|]. split; [apply npath_one; split; [left; reflexivity|reflexivity]|reflexivity].
    + left. exists [0; 1; 2]. split; [|reflexivity]. constructor; [left; reflexivity|]. constructor; [left; reflexivity|]. constructor; [left; reflexivity|]. constructor.
Qed.
(** An arc with companions: 2 is deleted beside 7 8. *)
Example C73_delete_ex : arc_of two_ways 1 /\ ~ alone two_ways 1 /\ n_out (delete_arc two_ways 1) 2 = [3] /\ n_in (delete_arc two_ways 1) 3 = [4].
Proof.
  split; [exists 2; left; reflexivity|]. split; [intros [E|E]; discriminate E|]. split; reflexivity.
Qed.
Example C73_destroy_ex : match destroy 5 two_ways with Ok (k, N') => (k, n_stop N', n_out N' (n_start N')) = (5, None, []) | _ => False end.
Proof. vm_compute. reflexivity. Qed.
