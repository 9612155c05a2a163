(** C77: the composite word network of ROVER. *)
From Coq Require Import List ZArith NArith Arith Bool Lia Permutation.
From Verif Require Import Base Text_Model Word_Model.
From Verif Require Import Net_Model Net_Spec NetDp_Model NetDp_Thm Net_Proofs3 Copy_Model Wtn_Model Wtn_Spec Wtn_Proofs4 Wtn_Proofs5.
Import ListNotations.

(** Networks without alternatives, of words from a class [P] closed under copying for which the
    distance is defined and at most [Wm], are merged without an error.  The result is a row of slots,
    the composite of the lines: each line is merged with the row of the earlier ones by a cheapest
    alignment.  The sizes are bounded by the matrix and by the starting value of the search. *)
Theorem C77_composite : forall (D : Type) (wwd : option D -> option D -> res Z) (copy : D -> D) (null : D) (w : option D -> option D -> Z) (Wm : Z) (P : D -> Prop)
    (nets : list (net D)) (ls : list (list D)) (T : table),
  (forall d, P d -> P (copy d)) -> P null ->
  (forall x y, x <> None \/ y <> None -> (forall d, x = Some d -> P d) -> (forall d, y = Some d -> P d) -> wwd x y = Ok (w x y) /\ (w x y <= Wm)%Z) -> (0 <= Wm)%Z ->
  nets <> [] -> Forall2 is_line nets ls -> Forall (Forall P) ls ->
  (Z.of_nat (length ls) * Z.of_nat (length (concat ls)) < 65534)%Z ->
  (Wm * (Z.of_nat (length ls) * Z.of_nat (length (concat ls)) + Z.of_nat (length (concat ls)) + 2) < 999999900)%Z ->
  exists G R, dpalign_n wwd copy null nets T = Ok G /\ is_wtn G R /\ composite w copy null ls R.
Proof.
  intros D wwd copy null w Wm P nets ls T Pc Pn Hw H0 NE F FP M Big. apply (dpalign_n_ok wwd copy null w Wm P); try assumption. unfold MAX_MATRIX. lia.
Qed.
Print Assumptions C77_composite.

(** In a composite each slot has one entry for each system, the words of each system stand in its
    column in their order and nothing else does, and no slot has only null words. *)
Theorem C77_systems : forall (D : Type) (w : option D -> option D -> Z) (copy : D -> D) (null : D) (ls R : list (list D)), composite w copy null ls R ->
  Forall (fun s => length s = length ls) R /\
  exists cols, Forall2 (column_of (copy null)) R cols /\ Forall (fun c => length c = length ls /\ exists d, In (Some d) c) cols /\
    forall i l, nth_error ls i = Some l -> words_of cols i = match i with 0 => map copy l | S _ => map copy (map copy l) end.
Proof.
  intros D w copy null ls R H. split; [exact (proj1 (composite_len w copy null ls R H))|]. exact (composite_cols w copy null ls R H).
Qed.
Print Assumptions C77_systems.

(** The network of a list of words is a line with these words. *)
Theorem C77_lines : forall (D : Type) (l : list D), is_line (word_line l) l.
Proof. intros. apply word_line_ok. Qed.
Print Assumptions C77_lines.

(** ROVER with its word distance: the outputs of the systems are merged into their composite, with
    a slot for each of them everywhere. *)
Theorem C77_rover : forall (null : word) (ls : list (list word)) (T : table), ls <> [] -> rover_word null -> Forall (Forall rover_word) ls ->
  (Z.of_nat (length ls) * Z.of_nat (length (concat ls)) < 65534)%Z ->
  exists G R cols, dpalign_n (wwd_rover ASCII) copy_word null (map word_line ls) T = Ok G /\ is_wtn G R /\ composite rover_cost copy_word null ls R /\
    Forall2 (column_of (copy_word null)) R cols /\ Forall (fun c => length c = length ls /\ exists d, In (Some d) c) cols /\
    forall i l, nth_error ls i = Some l -> words_of cols i = match i with 0 => map copy_word l | S _ => map copy_word (map copy_word l) end.
Proof.
  intros null ls T NE PN FP M.
  assert (B : (Z.of_nat (length (concat ls)) <= Z.of_nat (length ls) * Z.of_nat (length (concat ls)))%Z) by (destruct ls; [congruence|]; cbn [length]; nia).
  destruct (C77_composite word (wwd_rover ASCII) copy_word null rover_cost 4000 rover_word (map word_line ls) ls T rover_copy PN rover_ok ltac:(lia)) as (G & R & E & HG & HC).
  - destruct ls; [congruence|discriminate].
  - clear. induction ls as [|l ls IH]; [constructor|]. cbn [map]. constructor; [apply C77_lines|exact IH].
  - exact FP.
  - exact M.
  - lia.
  - destruct (C77_systems _ _ _ _ _ _ HC) as (_ & cols & C1 & C2 & C3). exists G, R, cols. auto 10.
Qed.
Print Assumptions C77_rover.

(** Alternatives in an input are not kept: of the two words 2 and 3 of the second network only the
    first is in the result. *)
Definition two_words : net nat := insert_between (word_line [2]) 0 1 (Some 3).
Theorem C77_alternatives_refuted : exists nets G R, Forall wf_net nets /\ (exists N, In N nets /\ nsays N [Some 3]) /\
  dpalign_n (dist 4000) (fun d => d) 0 nets start_table = Ok G /\ slots G (n_start G) R /\ ~ In 3 (concat R).
Proof.
  exists [word_line [1]; two_words]. destruct (dpalign_n (dist 4000) (fun d => d) 0 [word_line [1]; two_words] start_table) as [G| | |] eqn:E; try (vm_compute in E; discriminate E). exists G, [[1; 2]].
  assert (K : match dpalign_n (dist 4000) (fun d => d) 0 [word_line [1]; two_words] start_table with
              | Ok G => (n_start G, n_out G 0, n_out G 1, n_data G 0, n_data G 3, n_to G 0, n_to G 3) = (0, [0; 3], [], Some 1, Some 2, 1, 1)
              | _ => False end) by (vm_compute; reflexivity).
  rewrite E in K. injection K as K1 K2 K3 K4 K5 K6 K7. split; [|split; [|split; [reflexivity|split]]].
  - constructor; [apply (word_line_ok [1])|]. constructor; [|constructor]. pose proof (proj1 (word_line_ok [2])) as W.
    assert (O : In 0 (n_out (word_line [2]) 0)) by (vm_compute; now left).
    apply btw_wf; [exact W|exact (wf_reach _ W 0 0 O)|exact (wf_coreach _ W 0 0 O)|vm_compute; lia|]. destruct (wf_rank _ W) as (rk & Hr). exists rk. split; [exact Hr|exact (Hr 0 0 O)].
  - exists two_words. split; [right; now left|]. unfold nsays. change (n_stop two_words) with (Some 1). exists [1]. split; [|reflexivity]. change (n_start two_words) with 0.
    apply np_cons; [vm_compute; auto|]. change (n_to two_words 1) with 1. constructor.
  - rewrite K1. apply (slots_more G 0 [1; 2] 1); [discriminate|rewrite K2; cbn; rewrite K4, K5; reflexivity| |constructor; exact K3].
    rewrite K2. intros x [<-|[<-|[]]]; assumption.
  - cbn. intuition congruence.
Qed.
Print Assumptions C77_alternatives_refuted.

(** ** Examples *)
(** Three systems: the composite has four slots. *)
Example C77_case : let d := dist 4000 in
  match dpalign_n d (fun x => x) 0 (map word_line [[10; 20; 30]; [11; 20; 50; 31]; [21]]) start_table with
  | Ok G => (n_start G, n_stop G, map (fun p => map (n_data G) (n_out G p)) [0; 2; 10; 5], map (fun p => map (n_to G) (n_out G p)) [0; 2; 10; 5]) =
      (0, Some 1, [[Some 10; Some 11; Some 0]; [Some 20; Some 20; Some 0]; [Some 50; Some 0; Some 0]; [Some 30; Some 31; Some 21]], [[2; 2; 2]; [10; 10; 10]; [5; 5; 5]; [1; 1; 1]])
  | _ => False
  end.
Proof. vm_compute. reflexivity. Qed.
(** The systems "the cat", "the" and "a cat". *)
Definition mkw (s : list N) : word := new_word s 0 0 false false 0.
Example C77_rover_case : let the := mkw [116; 104; 101]%N in let cat := mkw [99; 97; 116]%N in let a := mkw [97]%N in let null := mkw [64]%N in
  let ls := [[the; cat]; [the]; [a; cat]] in
  Forall (Forall rover_word) ls /\ rover_word null /\ (Z.of_nat (length ls) * Z.of_nat (length (concat ls)) < 65534)%Z /\
  match dpalign_n (wwd_rover ASCII) copy_word null (map word_line ls) start_table with
  | Ok G => (n_start G, map (fun p => map (n_data G) (n_out G p)) [0; 2]) = (0, [[Some the; Some the; Some a]; [Some cat; Some null; Some cat]])
  | _ => False
  end.
Proof.
  assert (T : forall s, (forall b, In b s -> b <> 37%N) -> ~ has_tag s).
  { intros s H (a & b & c & E & M). destruct b as [|x b]; [discriminate|]. cbn in M. injection M as M _. apply (H x); [rewrite E; apply in_app_iff; right; now left|].
    unfold small in M. destruct ((65 <=? x)%N && (x <=? 90)%N) eqn:L; [|exact M]. apply andb_true_iff in L. destruct L as [L1 _]. apply N.leb_le in L1. lia. }
  assert (R : forall s, s <> [] -> Forall (fun b => 0 < b < 128)%N s -> (forall b, In b s -> b <> 37%N) -> last s 0%N <> 42%N -> rover_word (mkw s)).
  { intros s N F H L. assert (E : w_value (mkw s) = s) by (unfold mkw, new_word; cbn [w_value]; destruct s as [|x [|y s]]; [reflexivity|reflexivity|]; rewrite (proj2 (N.eqb_neq _ _)) by exact L; reflexivity).
    unfold rover_word. rewrite E. auto 10. }
  cbv zeta. split; [|split; [|split; [cbn; lia|vm_compute; reflexivity]]].
  - repeat constructor; apply R; try discriminate; try (repeat constructor; lia); cbn; intros b Hb; repeat (destruct Hb as [<-|Hb]; [discriminate|]); destruct Hb.
  - apply R; try discriminate; try (repeat constructor; lia). cbn. intros b [<-|[]]. discriminate.
Qed.
