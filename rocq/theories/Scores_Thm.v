(** C37 the speaker groups, C36 McNemar's test on sentences. *)
From Coq Require Import List Arith ZArith NArith QArith Bool Lia Lqa.
From Verif Require Import Base NetDp_Model Word_Model Order_Model Path_Model Path_Spec Binom_Spec Scores_Model Scores_Spec Scores_Proofs Scores_Proofs2.
Import ListNotations.
Local Open Scope res_scope.
Local Open Scope nat_scope.

Definition well_formed_calls (cs : list call) : Prop := Forall (fun c => Forall well_formed_step (s_steps (sentence_of c))) cs.

(** * C37 *)
(** After any history of scored sentences, from any initial size: no write outside an array; one group
    for each speaker, in order of first appearance; in each group the totals over exactly the sentences
    of that speaker, and the sentences asked to be kept, in order. *)
Theorem C37_groups : forall ngrp cs, well_formed_calls cs ->
  exists sc gs, score_calls (scores_init ngrp) cs = Ok sc /\ entries sc gs
    /\ map g_name gs = speakers cs /\ NoDup (map g_name gs)
    /\ (forall g, In g gs -> totals g (calls_of (g_name g) cs)
                             /\ entries (g_path g) (kept_sentences (calls_of (g_name g) cs))).
Proof.
  intros ngrp cs W. destruct (calls_ok cs (scores_init ngrp) [] (state_init ngrp) W) as (sc & E & gs & R & Nm & F). cbn [app] in *.
  exists sc, gs. split; [exact E|]. split; [apply R|]. split; [exact Nm|]. split; [rewrite Nm; apply speakers_nodup|].
  intros g I. rewrite Forall_forall in F. destruct (F g I) as [T (K & _)]. auto.
Qed.
Print Assumptions C37_groups.

(** The counters add up: reference words are correct, substituted or deleted, hypothesis words correct,
    substituted or inserted; the weights of the reference words likewise; not more sentences with an
    error than sentences. *)
Lemma counts_add l : Forall well_formed_step l ->
  ref_words l = number PCorr l + number PSub l + number PDel l /\ hyp_words l = number PCorr l + number PSub l + number PIns l
  /\ ref_weight l = (ref_weight (of_eval PCorr l) + ref_weight (of_eval PSub l) + ref_weight (of_eval PDel l))%Z
  /\ hyp_weight l = (hyp_weight (of_eval PCorr l) + hyp_weight (of_eval PSub l) + hyp_weight (of_eval PIns l))%Z.
Proof.
  induction 1 as [|s l Hs Hl (I1 & I2 & I3 & I4)]; [repeat split|].
  unfold ref_words, hyp_words, number, ref_weight, hyp_weight, of_eval in *. destruct s as [[a b] e].
  destruct e, a as [a|], b as [b|]; cbn [well_formed_step] in Hs; destruct Hs as [Ha Hb]; try congruence; try contradiction; try discriminate;
    cbn [filter is_eval fst snd length map zsum wt]; repeat split; lia.
Qed.
Lemma count_le {A} (P : A -> Prop) l k : count_of P l k -> k <= length l.
Proof. induction 1; cbn [length]; lia. Qed.
Lemma all_steps_wf n cs : well_formed_calls cs -> Forall well_formed_step (all_steps (calls_of n cs)).
Proof.
  intros W. induction W as [|c cs Wc W IH]; [constructor|]. unfold calls_of. cbn [filter]. destruct (same _ _); [|exact IH].
  change (all_steps (c :: filter (fun c0 => same n (speaker_of c0)) cs)) with (s_steps (sentence_of c) ++ all_steps (calls_of n cs)).
  apply Forall_app. split; [exact Wc|exact IH].
Qed.
Theorem C37_counters_add_up : forall ngrp cs, well_formed_calls cs ->
  exists sc gs, score_calls (scores_init ngrp) cs = Ok sc /\ entries sc gs
    /\ forall g, In g gs ->
         let steps := all_steps (calls_of (g_name g) cs) in
         g_corr g + g_sub g + g_del g = ref_words steps
         /\ g_corr g + g_sub g + g_ins g = hyp_words steps
         /\ (ref_weight (of_eval PCorr steps) + ref_weight (of_eval PSub steps) + g_wdel g)%Z = g_wref g
         /\ g_serr g <= g_nsent g.
Proof.
  intros ngrp cs W. destruct (C37_groups ngrp cs W) as (sc & gs & E & R & Nm & ND & H). exists sc, gs. split; [exact E|]. split; [exact R|].
  intros g I. cbv zeta. destruct (H g I) as [[] _]. destruct (counts_add _ (all_steps_wf (g_name g) cs W)) as (A1 & A2 & A3 & A4).
  split; [lia|]. split; [lia|]. split; [lia|]. apply count_le in t_serr. lia.
Qed.
Print Assumptions C37_counters_add_up.

(** * C36 *)
(** The table: each cell counts the sentences of both systems with the outcomes of the cell; together
    they are the sentences scored by both; exchanging the systems transposes it. *)
Theorem C36_table : forall n1 n2 cs1 cs2, well_formed_calls cs1 -> well_formed_calls cs2 ->
  exists sys1 sys2 t00 t01 t10 t11, score_calls (scores_init n1) cs1 = Ok sys1 /\ score_calls (scores_init n2) cs2 = Ok sys2
    /\ spk1_loop sys1 sys2 (p_num sys1) 0 (0, 0, 0, 0)%Z = Ok (Z.of_nat t00, Z.of_nat t01, Z.of_nat t10, Z.of_nat t11)
    /\ in_cell false false cs1 cs2 t00 /\ in_cell false true cs1 cs2 t01 /\ in_cell true false cs1 cs2 t10 /\ in_cell true true cs1 cs2 t11
    /\ count_of same_sentence (list_prod (filter kept_of cs1) (filter kept_of cs2)) (t00 + t01 + t10 + t11)
    /\ spk1_loop sys2 sys1 (p_num sys2) 0 (0, 0, 0, 0)%Z = Ok (Z.of_nat t00, Z.of_nat t10, Z.of_nat t01, Z.of_nat t11).
Proof.
  intros n1 n2 cs1 cs2 W1 W2. destruct (calls_ok cs1 (scores_init n1) [] (state_init n1) W1) as (sys1 & E1 & S1).
  destruct (calls_ok cs2 (scores_init n2) [] (state_init n2) W2) as (sys2 & E2 & S2). cbn [app] in *.
  exists sys1, sys2, (nb (cell false false) (looked cs1 cs2)), (nb (cell false true) (looked cs1 cs2)),
    (nb (cell true false) (looked cs1 cs2)), (nb (cell true true) (looked cs1 cs2)).
  split; [exact E1|]. split; [exact E2|]. split; [rewrite (spk1_ok _ _ _ _ S1 S2), table_all, !Z.add_0_l; reflexivity|].
  split; [unfold in_cell; rewrite looked_all; apply count_nb, cell_spec|].
  split; [unfold in_cell; rewrite looked_all; apply count_nb, cell_spec|].
  split; [unfold in_cell; rewrite looked_all; apply count_nb, cell_spec|].
  split; [unfold in_cell; rewrite looked_all; apply count_nb, cell_spec|].
  split.
  - rewrite cells_total, looked_all. apply count_nb. intros p. unfold on_sent, any_cell, same_sentence. cbn [fst snd].
    rewrite andb_true_iff, !same_iff. reflexivity.
  - rewrite (spk1_ok _ _ _ _ S2 S1), table_all, !Z.add_0_l. rewrite !(cell_swap _ _ cs1 cs2). reflexivity.
Qed.
Print Assumptions C36_table.

(** For the groups built from two histories: the value and verdict depend only on the number [a] of
    sentences only the first system has wrong and the number [b] only the second has wrong. *)
Theorem C36_verdict : forall n1 n2 cs1 cs2, well_formed_calls cs1 -> well_formed_calls cs2 ->
  exists sys1 sys2 r c a b, score_calls (scores_init n1) cs1 = Ok sys1 /\ score_calls (scores_init n2) cs2 = Ok sys2
    /\ mcnemar_by_sent sys1 sys2 = Ok (r, c)
    /\ only_first cs1 cs2 a /\ only_second cs1 cs2 b
    (* equally many: no difference *)
    /\ (a = b -> r = 0%Z /\ c = 1%Q)
    (* otherwise the two-sided probability of the smaller number in a + b fair tosses, up to 20 *)
    /\ (a <> b -> a + b <= 20 -> (c == 2 * at_most (Nat.min a b) (a + b) (1 # 2))%Q)
    (* a difference exactly when it is below 5 percent, in favour of the system with fewer *)
    /\ (r <> 0%Z <-> (c < 1 # 20)%Q)
    /\ (r = 0%Z \/ r = 1%Z /\ b < a \/ r = (-1)%Z /\ a < b).
Proof.
  intros n1 n2 cs1 cs2 W1 W2. destruct (calls_ok cs1 (scores_init n1) [] (state_init n1) W1) as (sys1 & E1 & S1).
  destruct (calls_ok cs2 (scores_init n2) [] (state_init n2) W2) as (sys2 & E2 & S2). cbn [app] in *.
  destruct (mcnemar_ok sys1 sys2 cs1 cs2 S1 S2) as (x & y & M).
  set (a := nb cell1 (looked cs1 cs2)) in *. set (b := nb cell2 (looked cs1 cs2)) in *.
  destruct (do_mcnemar (x, Z.of_nat b, Z.of_nat a, y)) as [r c] eqn:D. exists sys1, sys2, r, c, a, b.
  split; [exact E1|]. split; [exact E2|]. split; [exact M|].
  split; [unfold a, only_first; rewrite looked_all; apply count_nb, cell1_spec|].
  split; [unfold b, only_second; rewrite looked_all; apply count_nb, cell2_spec|].
  assert (Eq : a = b -> r = 0%Z /\ c = 1%Q).
  { intros Q. unfold do_mcnemar in D. rewrite <- Q in D. rewrite Z.eqb_refl, orb_true_r in D. injection D as <- <-. auto. }
  split; [exact Eq|]. destruct (Nat.eq_dec a b) as [Q|Q].
  - split; [intros; contradiction|]. destruct (Eq Q) as [-> ->]. split; [|auto]. split; [congruence|]. intros L. lra.
  - destruct (verdict a b x y Q) as (V1 & V2 & V3 & V4). rewrite D in *. cbn [fst snd] in *. split; [intros _; exact V3|]. auto.
Qed.
Print Assumptions C36_verdict.

(** Exchanging the systems negates the verdict and keeps the value. *)
Theorem C36_swap : forall n1 n2 cs1 cs2, well_formed_calls cs1 -> well_formed_calls cs2 ->
  exists sys1 sys2 r c, score_calls (scores_init n1) cs1 = Ok sys1 /\ score_calls (scores_init n2) cs2 = Ok sys2
    /\ mcnemar_by_sent sys1 sys2 = Ok (r, c) /\ mcnemar_by_sent sys2 sys1 = Ok ((- r)%Z, c).
Proof.
  intros n1 n2 cs1 cs2 W1 W2. destruct (calls_ok cs1 (scores_init n1) [] (state_init n1) W1) as (sys1 & E1 & S1).
  destruct (calls_ok cs2 (scores_init n2) [] (state_init n2) W2) as (sys2 & E2 & S2). cbn [app] in *.
  destruct (mcnemar_ok sys1 sys2 cs1 cs2 S1 S2) as (x & y & M). destruct (mcnemar_ok sys2 sys1 cs2 cs1 S2 S1) as (x' & y' & M').
  rewrite (cells_swap cs2 cs1), <- (cells_swap cs1 cs2) in M'.
  set (a := Z.of_nat (nb cell1 (looked cs1 cs2))) in *. set (b := Z.of_nat (nb cell2 (looked cs1 cs2))) in *.
  exists sys1, sys2, (fst (do_mcnemar (x, b, a, y))), (snd (do_mcnemar (x, b, a, y))). split; [exact E1|]. split; [exact E2|].
  rewrite M, M'. split; [rewrite <- surjective_pairing; reflexivity|]. f_equal. unfold do_mcnemar.
  destruct (Z.eqb_spec a b) as [->|N]; rewrite ?Z.eqb_refl, ?orb_true_r; [reflexivity|].
  destruct (Z.eqb_spec b a) as [|_]; [lia|]. rewrite (andb_comm (a =? 0)%Z). destruct (_ || _)%bool; [reflexivity|].
  unfold compute_mcnemar. cbv zeta. rewrite (Z.add_comm b a).
  replace (if (b <? a)%Z then b else a) with (if (a <? b)%Z then a else b) by (destruct (Z.ltb_spec a b), (Z.ltb_spec b a); lia).
  set (st := (2 * _)%Q). cbn [fst snd]. destruct (negb _); [|reflexivity]. unfold TEST_DIFF.
  destruct (Z.ltb_spec a b), (Z.ltb_spec b a); try lia; reflexivity.
Qed.
Print Assumptions C36_swap.

(** Refuted: the value is not the two-sided probability for more than 20 sentences.  Every uneven split
    is reported as a significant difference. *)
Theorem C36_many_sentences_refuted : forall n1 n2 cs1 cs2 a b, well_formed_calls cs1 -> well_formed_calls cs2 ->
  only_first cs1 cs2 a -> only_second cs1 cs2 b -> a <> b -> 20 < a + b ->
  exists sys1 sys2 r c, score_calls (scores_init n1) cs1 = Ok sys1 /\ score_calls (scores_init n2) cs2 = Ok sys2
    /\ mcnemar_by_sent sys1 sys2 = Ok (r, c) /\ r <> 0%Z.
Proof.
  intros n1 n2 cs1 cs2 a b W1 W2 A B N L. destruct (calls_ok cs1 (scores_init n1) [] (state_init n1) W1) as (sys1 & E1 & S1).
  destruct (calls_ok cs2 (scores_init n2) [] (state_init n2) W2) as (sys2 & E2 & S2). cbn [app] in *.
  destruct (mcnemar_ok sys1 sys2 cs1 cs2 S1 S2) as (x & y & M).
  assert (Ea : a = nb cell1 (looked cs1 cs2)) by (rewrite looked_all; eapply count_unique; [exact A|apply count_nb, cell1_spec]).
  assert (Eb : b = nb cell2 (looked cs1 cs2)) by (rewrite looked_all; eapply count_unique; [exact B|apply count_nb, cell2_spec]).
  rewrite <- Ea, <- Eb in M. destruct (verdict a b x y N) as (V1 & V2 & V3 & V4).
  destruct (do_mcnemar (x, Z.of_nat b, Z.of_nat a, y)) as [r c] eqn:D. exists sys1, sys2, r, c.
  split; [exact E1|]. split; [exact E2|]. split; [exact M|]. cbn [fst snd] in *. apply V1. apply V4. exact L.
Qed.
Print Assumptions C36_many_sentences_refuted.

Definition a_word (w : Z) : word :=
  {| w_value := []; w_intern := None; w_opt_del := false; w_frag := false; w_t1 := 0%Z; w_t2 := 0%Z; w_dur := 0%Z; w_weight := w |}.
Definition good (id : N) : sentence := {| s_id := [id]; s_steps := [(Some (a_word 2), Some (a_word 3), PCorr)] |}.
Definition bad (id : N) : sentence := {| s_id := [id]; s_steps := [(Some (a_word 2), Some (a_word 3), PCorr); (Some (a_word 5), None, PDel); (None, Some (a_word 7), PIns)] |}.
Definition case_calls : list call := [([1%N], bad 1, true); ([2%N], good 1, true); ([1%N], good 2, true); ([2%N], bad 2, false)].
Example C37_case : well_formed_calls case_calls
  /\ exists sc, score_calls (scores_init 0) case_calls = Ok sc /\ p_num sc = 2
     /\ exists g1 g2, firstn 2 (p_pset sc) = [Some g1; Some g2] /\ g_corr g1 = 2 /\ g_del g1 = 1 /\ g_serr g1 = 1 /\ g_wref g1 = 9%Z
        /\ p_num (g_path g1) = 2 /\ p_num (g_path g2) = 1 /\ g_nsent g2 = 2.
Proof.
  split; [repeat constructor; cbn; discriminate|]. eexists. split; [vm_compute; reflexivity|]. split; [reflexivity|].
  eexists _, _. split; [reflexivity|]. repeat split.
Qed.
(** more than twenty speakers, so that the arrays grow *)
Example C37_growth_case : exists sc, score_calls (scores_init 5) (map (fun k => ([N.of_nat (k mod 50)], good 1, true)) (seq 0 2000)) = Ok sc
  /\ p_num sc = 50 /\ length (p_pset sc) = 67
  /\ exists g, nth_error (p_pset sc) 49 = Some (Some g) /\ g_nsent g = 40 /\ p_num (g_path g) = 40.
Proof. eexists. split; [vm_compute; reflexivity|]. split; [reflexivity|]. split; [reflexivity|]. eexists. split; [reflexivity|]. split; reflexivity. Qed.
Definition sys_a : list call := map (fun k => ([1%N], if k <? 9 then bad (N.of_nat k) else good (N.of_nat k), true)) (seq 0 20).
Definition sys_b : list call := map (fun k => ([1%N], if k =? 15 then bad (N.of_nat k) else good (N.of_nat k), true)) (seq 0 20).
Example C36_case : exists s1 s2 c, score_calls (scores_init 5) sys_a = Ok s1 /\ score_calls (scores_init 5) sys_b = Ok s2
  /\ mcnemar_by_sent s1 s2 = Ok (1%Z, c) /\ (c < 1 # 20)%Q /\ (1 # 50 < c)%Q.
Proof. eexists _, _, _. split; [vm_compute; reflexivity|]. split; [vm_compute; reflexivity|]. split; [vm_compute; reflexivity|]. split; reflexivity. Qed.
(** eleven against ten sentences: reported as significant *)
Definition sys_c : list call := map (fun k => ([1%N], if k <? 11 then bad (N.of_nat k) else good (N.of_nat k), true)) (seq 0 21).
Definition sys_d : list call := map (fun k => ([1%N], if k <? 11 then good (N.of_nat k) else bad (N.of_nat k), true)) (seq 0 21).
Example C36_many_case : exists s1 s2 c, score_calls (scores_init 5) sys_c = Ok s1 /\ score_calls (scores_init 5) sys_d = Ok s2
  /\ mcnemar_by_sent s1 s2 = Ok (1%Z, c).
Proof. eexists _, _, _. split; [vm_compute; reflexivity|]. split; [vm_compute; reflexivity|]. vm_compute. reflexivity. Qed.
