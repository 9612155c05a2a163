(** sclite's alignment of networks. *)
From Coq Require Import List ZArith Arith Bool Lia.
From Verif Require Import Base Net_Model Net_Spec Net_Proofs1 Net_Proofs3 NetDp_Model NetDp_Spec NetDp_Proofs4 NetDp_Proofs5 Net_Thm.
Import ListNotations.

(** The cost found is attained by an alignment of two full paths, and no alignment of any two full
    paths is cheaper.  [w] is the distance in thousandths for words of the networks, [Wm] a bound on it; the matrix may
    hold anything before the call. *)
Theorem C25_cost_is_the_minimum : forall (D : Type) wwd equal is_null is_opt (empty : D) (w : option D -> option D -> Z) (Wm : Z)
    (NA NB : net D) nulls fuel T,
  wf_net NA -> wf_net NB -> no_null_data NA -> no_null_data NB ->
  (forall x y, x <> None \/ y <> None -> word_in NA x -> word_in NB y -> wwd x y = Ok (w x y) /\ (w x y <= Wm)%Z) ->
  (0 <= Wm)%Z ->
  (Wm * (Z.of_nat (n_arcs NA) + Z.of_nat (n_arcs NB) + 2) < 999999900)%Z ->
  (Z.of_nat (n_arcs NA) < 65534 /\ Z.of_nat (n_arcs NB) < 65534)%Z ->
  S (n_nodes NA) < fuel -> S (n_nodes NB) < fuel ->
  exists A B c path, dpalign wwd equal is_null is_opt empty nulls fuel T NA NB = Ok (A, B, (Some c, path)) /\
    (exists s, is_alignment NA NB s /\ align_cost w NA NB s = c) /\
    (forall s, is_alignment NA NB s -> (c <= align_cost w NA NB s)%Z).
Proof.
  intros D wwd equal is_null is_opt empty w Wm NA NB nulls fuel T WA WB DA DB Hw H0 Hbig Hsize HfA HfB.
  destruct (dpalign_local wwd equal is_null is_opt empty w Wm NA NB WA WB DA DB Hw H0 Hbig Hsize nulls fuel T HfA HfB) as (s & E & Hs & Hmin).
  do 4 eexists. split; [exact E|]. split; [exists s; auto|exact Hmin].
Qed.

(** The path returned is the list of the entries of an alignment of two full paths of least cost,
    without the pairs of null words unless they are asked for. *)
Theorem C26_path_is_a_cheapest_alignment : forall (D : Type) wwd equal is_null is_opt (empty : D) (w : option D -> option D -> Z) (Wm : Z)
    (NA NB : net D) nulls fuel T,
  wf_net NA -> wf_net NB -> no_null_data NA -> no_null_data NB ->
  (forall x y, x <> None \/ y <> None -> word_in NA x -> word_in NB y -> wwd x y = Ok (w x y) /\ (w x y <= Wm)%Z) ->
  (0 <= Wm)%Z ->
  (Wm * (Z.of_nat (n_arcs NA) + Z.of_nat (n_arcs NB) + 2) < 999999900)%Z ->
  (Z.of_nat (n_arcs NA) < 65534 /\ Z.of_nat (n_arcs NB) < 65534)%Z ->
  S (n_nodes NA) < fuel -> S (n_nodes NB) < fuel ->
  exists A B c path s, dpalign wwd equal is_null is_opt empty nulls fuel T NA NB = Ok (A, B, (Some c, path)) /\
    is_alignment NA NB s /\ (forall s', is_alignment NA NB s' -> (align_cost w NA NB s <= align_cost w NA NB s')%Z) /\
    path = map (entry_of equal is_opt empty NA NB) (filter (shown is_null nulls NA NB) s).
Proof.
  intros D wwd equal is_null is_opt empty w Wm NA NB nulls fuel T WA WB DA DB Hw H0 Hbig Hsize HfA HfB.
  destruct (dpalign_local wwd equal is_null is_opt empty w Wm NA NB WA WB DA DB Hw H0 Hbig Hsize nulls fuel T HfA HfB) as (s & E & Hs & Hmin).
  do 5 eexists. split; [exact E|]. split; [exact Hs|]. split; [exact Hmin|reflexivity].
Qed.

(** With nulls included and no optional words, reading one side of the path gives the words of a
    full path of that network. *)
Theorem C26_sides_of_the_path : forall (D : Type) wwd equal is_null (empty : D) (w : option D -> option D -> Z) (Wm : Z)
    (NA NB : net D) fuel T,
  wf_net NA -> wf_net NB -> no_null_data NA -> no_null_data NB ->
  (forall x y, x <> None \/ y <> None -> word_in NA x -> word_in NB y -> wwd x y = Ok (w x y) /\ (w x y <= Wm)%Z) ->
  (0 <= Wm)%Z ->
  (Wm * (Z.of_nat (n_arcs NA) + Z.of_nat (n_arcs NB) + 2) < 999999900)%Z ->
  (Z.of_nat (n_arcs NA) < 65534 /\ Z.of_nat (n_arcs NB) < 65534)%Z ->
  S (n_nodes NA) < fuel -> S (n_nodes NB) < fuel ->
  exists A B c path, dpalign wwd equal is_null (fun _ => false) empty true fuel T NA NB = Ok (A, B, (c, path)) /\
    nsays NA (filter (fun o => match o with Some _ => true | None => false end) (map (fun e => fst (fst e)) path)) /\
    nsays NB (filter (fun o => match o with Some _ => true | None => false end) (map (fun e => snd (fst e)) path)).
Proof.
  intros D wwd equal is_null empty w Wm NA NB fuel T WA WB DA DB Hw H0 Hbig Hsize HfA HfB.
  destruct (dpalign_local wwd equal is_null (fun _ => false) empty w Wm NA NB WA WB DA DB Hw H0 Hbig Hsize true fuel T HfA HfB) as (s & E & Hs & _).
  do 4 eexists. split; [exact E|].
  assert (Ef : forall l : pairing, filter (shown is_null true NA NB) l = l).
  { induction l as [|e l IH]; [reflexivity|]. cbn. now rewrite IH. }
  rewrite Ef. destruct Hs as (F1 & F2 & F3).
  assert (LA : forall x, In x (firsts s) -> n_data NA x <> None).
  { intros x Hx. unfold full_path in F1. destruct (n_stop NA) as [t|]; [|rewrite F1 in Hx; destruct Hx].
    clear - F1 Hx DA. induction F1 as [|u y ys v Hy Hp IH]; [destruct Hx|]. destruct Hx as [<-|Hx]; [apply (DA y u Hy)|auto]. }
  assert (LB : forall x, In x (seconds s) -> n_data NB x <> None).
  { intros x Hx. unfold full_path in F2. destruct (n_stop NB) as [t|]; [|rewrite F2 in Hx; destruct Hx].
    clear - F2 Hx DB. induction F2 as [|u y ys v Hy Hp IH]; [destruct Hx|]. destruct Hx as [<-|Hx]; [apply (DB y u Hy)|auto]. }
  assert (EA : filter (fun o => match o with Some _ => true | None => false end)
      (map (fun e => fst (fst e)) (map (entry_of equal (fun _ => false) empty NA NB) s)) = map (n_data NA) (firsts s)).
  { clear - LA. induction s as [|[[x|] [y|]] s IH]; cbn in *; [reflexivity| | | |]; try (apply IH; exact LA).
    - destruct (n_data NA x) eqn:Ex; [|destruct (LA x (or_introl eq_refl)); exact Ex]. f_equal. apply IH. intros z Hz. apply LA. now right.
    - destruct (n_data NA x) eqn:Ex; [|destruct (LA x (or_introl eq_refl)); exact Ex]. f_equal. apply IH. intros z Hz. apply LA. now right. }
  assert (EB : filter (fun o => match o with Some _ => true | None => false end)
      (map (fun e => snd (fst e)) (map (entry_of equal (fun _ => false) empty NA NB) s)) = map (n_data NB) (seconds s)).
  { clear - LB. induction s as [|[[x|] [y|]] s IH]; cbn in *; [reflexivity| | | |]; try (apply IH; exact LB).
    - destruct (n_data NB y) eqn:Ex; [|destruct (LB y (or_introl eq_refl)); exact Ex]. f_equal. apply IH. intros z Hz. apply LB. now right.
    - destruct (n_data NB y) eqn:Ex; [|destruct (LB y (or_introl eq_refl)); exact Ex]. f_equal. apply IH. intros z Hz. apply LB. now right. }
  split; [replace (filter _ _) with (map (n_data NA) (firsts s)) by (symmetry; exact EA)|
          replace (filter _ _) with (map (n_data NB) (seconds s)) by (symmetry; exact EB)].
  - unfold nsays. unfold full_path in F1. destruct (n_stop NA) as [t|]; [exists (firsts s); auto|now rewrite F1].
  - unfold nsays. unfold full_path in F2. destruct (n_stop NB) as [t|]; [exists (seconds s); auto|now rewrite F2].
Qed.

(** A network of two words and one of three. *)
Definition net_ab : net nat := fold_left net_run1 [AtTail 1; AtTail 2] net_init.
Definition dist (big : Z) (x y : option nat) : res Z :=
  match x, y with
  | None, None => Exit
  | Some a, Some b => Ok (if a =? b then 0%Z else big)
  | _, _ => Ok (big * 3 / 4)%Z
  end.
Definition eqw (x y : option nat) : bool :=
  match x, y with Some a, Some b => a =? b | _, _ => false end.
Definition start_table : table := fun _ _ => {| c_min := 7; c_a := Some 9; c_b := None |}.

(** When the cheapest cost reaches 999999.9 the path comes out empty. *)
Theorem C26_large_distances_lose_the_path_refuted : exists A B,
  dpalign (dist 1400000000) eqw (fun _ => false) (fun _ => false) 0 true 20 start_table net_ab (fold_left net_run1 [AtTail 3] net_init)
  = Ok (A, B, (None, [])).
Proof. do 2 eexists. vm_compute. reflexivity. Qed.

(** The networks keep the null arc put before them, so they cannot be aligned again: the distance
    function is then called for two nulls. *)
Theorem C26_aligning_again_refuted : exists A B r,
  dpalign (dist 4000) eqw (fun _ => false) (fun _ => false) 0 true 20 start_table net_ab net_ab = Ok (A, B, r) /\
  dpalign (dist 4000) eqw (fun _ => false) (fun _ => false) 0 true 20 start_table A B = Exit.
Proof.
  exists (add_head net_ab None), (add_head net_ab None). eexists. split; vm_compute; reflexivity.
Qed.

Example C25_case : wf_net skip_net /\ wf_net net_ab /\ no_null_data skip_net /\ no_null_data net_ab /\
  (exists A B, dpalign (dist 4000) eqw (fun _ => false) (fun _ => false) 0 true 20 start_table skip_net
     (fold_left net_run1 [AtTail 20; AtTail 40] net_init)
   = Ok (A, B, (Some 4000%Z, [(Some 50, Some 20, PSub); (Some 40, Some 40, PCorr)]))).
Proof.
  split; [exact skip_net_wf|]. split; [apply (runs_linear [AtTail 1; AtTail 2] net_init []), init_linear|].
  split; [|split].
  - intros x u H. cbn in H. destruct u as [|[|[|[|[|u]]]]]; cbn in H; repeat (destruct H as [<-|H]; [cbn; discriminate|]); destruct H.
  - intros x u H. cbn in H. destruct u as [|[|[|u]]]; cbn in H; repeat (destruct H as [<-|H]; [cbn; discriminate|]); destruct H.
  - do 2 eexists. vm_compute. reflexivity.
Qed.
Example C26_case : exists A B, dpalign (dist 4000) eqw (fun o => eqw o (Some 7)) (fun o => eqw o (Some 2)) 0 false 20 start_table
    (fold_left net_run1 [AtTail 1; AtTail 7; AtTail 2] net_init) (fold_left net_run1 [AtTail 5; AtTail 1] net_init)
  = Ok (A, B, (Some 9000%Z, [(None, Some 5, PIns); (Some 1, Some 1, PCorr); (Some 2, Some 0, PCorr)])).
Proof. do 2 eexists. vm_compute. reflexivity. Qed.

Print Assumptions C25_cost_is_the_minimum.
Print Assumptions C26_path_is_a_cheapest_alignment.
Print Assumptions C26_sides_of_the_path.
