(** C100: Friedman's analysis of variance by ranks. *)
From Coq Require Import String.
From Coq Require Import List ZArith QArith NArith Lia Lqa Arith Bool Permutation Sorted.
From Verif Require Import Base Store_Model Order_Model Order_Spec Order_Thm Rank_Model Rank_Spec Rank_Proofs1 Rank_Proofs2
  Anovar_Model Anovar_Spec Anovar_Proofs1 Anovar_Proofs2 Anovar_Proofs3 Anovar_Proofs4.
Import ListNotations.
Local Open Scope nat_scope.

(** Systems scored on the same speakers: the statistic is Friedman's, corrected for ties, over the ranks of
    the systems within each speaker; they are said to differ exactly if it exceeds the 5 percent point of the
    chi-square distribution; what the report says about the probability agrees with the table; two systems are
    called different exactly if the sums of their ranks lie the printed multiple apart, and the matrix names
    the one with the smaller sum. *)
Theorem C100_systems qsort f names ss verbose : qsort_contract qsort -> f <> Fother -> names <> [] -> 2 <= length ss -> scored_on names ss ->
  (verbose = true -> Forall (fun s => length (y_title s) <= 17) ss) ->
  exists r P h, init_rank qsort f ss = Ok r /\ table_of f ss (length names) P /\ ranked (best_first f) names (map y_title ss) P r /\
    systems_half verbose r = Ok h /\ analysed verbose (best_first f) P (length ss) (map y_title ss) (r_blk_srt_ind r) h.
Proof.
  intros H F N M SO V. assert (NE : ss <> []) by (intros ->; cbn in M; lia).
  destruct (init_ok qsort f names ss H F NE SO) as (r & P & E & T & SP & R).
  rewrite <- (map_length y_title ss) in SP, M.
  destruct (systems_ok verbose (best_first f) names (map y_title ss) P r R SP) as (h & EH & A).
  - destruct names; [congruence|cbn; lia].
  - exact M.
  - intro B. apply Forall_map. exact (V B).
  - exists r, P, h. rewrite <- (map_length y_title ss). auto.
Qed.
Print Assumptions C100_systems.

(** With at least as many speakers as systems, and no system with ties among its speakers beyond the count of
    systems, the whole analysis runs and the same holds for the speakers within each system. *)
Theorem C100_both qsort f names ss verbose : qsort_contract qsort -> f <> Fother -> 2 <= length ss <= length names -> scored_on names ss ->
  (verbose = true -> Forall (fun s => length (y_title s) <= 17) ss /\ Forall (fun s => length s <= 17) names) ->
  exists r P, init_rank qsort f ss = Ok r /\ table_of f ss (length names) P /\ ranked (best_first f) names (map y_title ss) P r /\
    ((forall j, j < length ss -> few_values (length ss) (sys P j) \/ all_different (sys P j)) ->
     exists s b W C, compute_anovar verbose r = Ok (s, b, W, C) /\
       analysed verbose (best_first f) P (length ss) (map y_title ss) (r_blk_srt_ind r) s /\
       analysed verbose (best_first f) (systems_rows P (length ss)) (length names) names (r_trt_srt_ind r) b /\
       compared (best_first f) P (length ss) W).
Proof.
  intros H F M SO V. assert (NE : ss <> []) by (intros ->; cbn in M; lia).
  destruct (init_ok qsort f names ss H F NE SO) as (r & P & E & T & SP & R).
  exists r, P. split; [exact E|]. split; [exact T|]. split; [exact R|]. rewrite <- (map_length y_title ss) in *. intro FV.
  destruct (systems_ok verbose (best_first f) names (map y_title ss) P r R SP) as (s & ES & AS); try lia.
  { intro B. apply Forall_map. exact (proj1 (V B)). }
  destruct (speakers_ok verbose (best_first f) names (map y_title ss) P r R SP M FV) as (b & EB & AB).
  { intro B. exact (proj2 (V B)). }
  unfold compute_anovar. rewrite ES. cbn [rbind]. rewrite EB. cbn [rbind]. exists s, b. eexists. eexists. split; [reflexivity|].
  split; [exact AS|]. split; [exact AB|]. apply AS.
Qed.
Print Assumptions C100_both.

(** The values of the table grow with the level and with the degrees of freedom. *)
Theorem C100_table df per : df < 30 -> per < 14 -> x2_score df per = Ok (level df per) /\
  (per < 13 -> (level df per < level df (per + 1))%Q) /\ (df < 29 -> (level df per < level (df + 1) per)%Q).
Proof.
  intros D P. split; [apply score_ok; assumption|].
  assert (K : forallb (fun df => forallb (fun per => (if per <? 13 then negb (Qle_bool (level df (per + 1)) (level df per)) else true) &&
     (if df <? 29 then negb (Qle_bool (level (df + 1) per) (level df per)) else true)) (seq 0 14)) (seq 0 30) = true) by (vm_compute; reflexivity).
  rewrite forallb_forall in K. assert (ID : In df (seq 0 30)) by (apply in_seq; lia). apply K in ID. rewrite forallb_forall in ID.
  assert (IP : In per (seq 0 14)) by (apply in_seq; lia). apply ID in IP. apply andb_true_iff in IP. destruct IP as (A & B). split; intro L.
  - apply Nat.ltb_lt in L. rewrite L in A. apply negb_true_iff in A. apply qle_false, A.
  - apply Nat.ltb_lt in L. rewrite L in B. apply negb_true_iff in B. apply qle_false, B.
Qed.
Print Assumptions C100_table.

(** More systems than speakers: counts of ties are read beyond the array. *)
Theorem C100_more_systems_refuted qsort f names ss verbose : qsort_contract qsort -> f <> Fother -> names <> [] -> length names < length ss -> scored_on names ss ->
  exists r, init_rank qsort f ss = Ok r /\ compute_anovar verbose r = Undef.
Proof.
  intros H F NN M SO. assert (NE : ss <> []) by (intros ->; cbn in M; lia). assert (N1 : 1 <= length names) by (destruct names; [congruence|cbn; lia]).
  destruct (init_ok qsort f names ss H F NE SO) as (r & P & E & T & SP & R). exists r. split; [exact E|].
  rewrite <- (map_length y_title ss) in SP, M. pose proof (speakers_undef verbose _ _ _ _ _ R SP (conj N1 M)) as U.
  assert (K : systems_half verbose r = Undef \/ exists h, systems_half verbose r = Ok h).
  { destruct (Forall_Exists_dec (fun s : list N => length s <= 17) (fun s => le_dec (length s) 17) (map y_title ss)) as [A|A].
    - right. destruct (systems_ok verbose _ _ _ _ _ R SP N1 ltac:(lia) (fun _ => A)) as (h & EH & _). exists h. exact EH.
    - destruct verbose.
      + left. apply (systems_long _ _ _ _ _ R SP N1 ltac:(lia)). revert A. apply Exists_impl. intros s. lia.
      + right. destruct (systems_ok false _ _ _ _ _ R SP N1 ltac:(lia)) as (h & EH & _); [discriminate|]. exists h. exact EH. }
  unfold compute_anovar. destruct K as [->|(h & ->)]; [reflexivity|]. cbn [rbind]. rewrite U. reflexivity.
Qed.
Print Assumptions C100_more_systems_refuted.

(** A title of more than 17 characters: the report uses an address before a string. *)
Theorem C100_long_name_refuted qsort f names ss : qsort_contract qsort -> f <> Fother -> names <> [] -> 2 <= length ss -> scored_on names ss ->
  Exists (fun s => 17 < length (y_title s)) ss ->
  exists r, init_rank qsort f ss = Ok r /\ compute_anovar true r = Undef.
Proof.
  intros H F NN M SO L. assert (NE : ss <> []) by (intros ->; cbn in M; lia). assert (N1 : 1 <= length names) by (destruct names; [congruence|cbn; lia]).
  destruct (init_ok qsort f names ss H F NE SO) as (r & P & E & T & SP & R). exists r. split; [exact E|].
  rewrite <- (map_length y_title ss) in SP, M. unfold compute_anovar. rewrite (systems_long _ _ _ _ _ R SP N1 M); [reflexivity|].
  apply Exists_exists in L. destruct L as (s & I & L). apply Exists_exists. exists (y_title s). split; [apply in_map, I|exact L].
Qed.
Print Assumptions C100_long_name_refuted.

Definition who (n : string) (errs : nat) : speaker := {| k_name := bytes n; k_corr := 100 - errs; k_sub := errs; k_del := 0; k_ins := 0 |}.
Definition sysof (t : string) (a b c d : nat) : system := {| y_title := bytes t; y_grps := [who "ann" a; who "bob" b; who "cyd" c; who "dan" d] |}.
Definition three (t : string) (a b c : nat) : system := {| y_title := bytes t; y_grps := [who "ann" a; who "bob" b; who "cyd" c] |}.

(** Two systems are called different although the test of all systems finds no difference. *)
Theorem C100_unprotected_refuted : exists ss r s b W C x, scored_on [bytes "ann"; bytes "bob"; bytes "cyd"] ss /\
  init_rank isort FE ss = Ok r /\ compute_anovar true r = Ok (s, b, W, C) /\ v_stat (h_analysis s) = Some x /\ ~ (nth 0 chi5 0 < x)%Q /\
  v_differ (h_analysis s) = false /\ win W 0 1 = (-1)%Z.
Proof.
  exists [three "one" 10 20 30; three "two" 12 25 31]. eexists. eexists. eexists. eexists. eexists. eexists.
  split; [repeat constructor|]. split; [vm_compute; reflexivity|]. split; [vm_compute; reflexivity|]. split; [vm_compute; reflexivity|].
  split; [|split; vm_compute; reflexivity]. vm_compute. discriminate.
Qed.
Print Assumptions C100_unprotected_refuted.

(** Two systems are called different although their sums of ranks are closer than the two-sided 5 percent
    limit of the formula in the comment of the function, 1.96 times the square root of b t (t + 1) / 6. *)
Theorem C100_critical_refuted : exists ss P r s b W C, scored_on [bytes "ann"; bytes "bob"; bytes "cyd"] ss /\ table_of FE ss 3 P /\
  init_rank isort FE ss = Ok r /\ compute_anovar true r = Ok (s, b, W, C) /\ win W 0 1 = (-1)%Z /\
  ~ apart (196 # 100) (variance_daniel 3 2) (rank_sum Increasing P 0) (rank_sum Increasing P 1).
Proof.
  exists [three "one" 10 20 30; three "two" 12 25 31], [[10; 12]; [20; 25]; [30; 31]]%Q. eexists. eexists. eexists. eexists. eexists.
  split; [repeat constructor|]. split.
  { split; [reflexivity|]. intros i I. do 3 (destruct i as [|i]; [split; [reflexivity|]; intros j s k J K; do 2 (destruct j as [|j]; [injection J as <-; injection K as <-; vm_compute; reflexivity|]); destruct j; discriminate|]). lia. }
  split; [vm_compute; reflexivity|]. split; [vm_compute; reflexivity|]. split; [vm_compute; reflexivity|]. vm_compute. congruence.
Qed.
Print Assumptions C100_critical_refuted.

(** Ties among the speakers of a system that come after as many distinct values as there are systems are not
    counted: the statistic of the speakers is not Friedman's. *)
Theorem C100_speaker_ties_refuted : exists ss P r s b W C x, scored_on [bytes "ann"; bytes "bob"; bytes "cyd"; bytes "dan"] ss /\ table_of FE ss 4 P /\
  init_rank isort FE ss = Ok r /\ compute_anovar true r = Ok (s, b, W, C) /\ v_stat (h_analysis b) = Some x /\
  ~ friedman Increasing (systems_rows P 2) 4 x.
Proof.
  exists [sysof "one" 10 20 30 30; sysof "two" 11 21 31 41], [[10; 11]; [20; 21]; [30; 31]; [30; 41]]%Q. eexists. eexists. eexists. eexists. eexists. eexists.
  split; [repeat constructor|]. split.
  { split; [reflexivity|]. intros i I. do 4 (destruct i as [|i]; [split; [reflexivity|]; intros j s k J K; do 2 (destruct j as [|j]; [injection J as <-; injection K as <-; vm_compute; reflexivity|]); destruct j; discriminate|]). lia. }
  split; [vm_compute; reflexivity|]. split; [vm_compute; reflexivity|]. split; [vm_compute; reflexivity|].
  intros (E & _). vm_compute in E. discriminate.
Qed.
Print Assumptions C100_speaker_ties_refuted.

Example C100_example : scored_on [bytes "ann"; bytes "bob"; bytes "cyd"; bytes "dan"] [sysof "one" 10 20 30 40; sysof "two" 11 21 31 41; sysof "six" 12 22 31 43] /\
  (match init_rank isort FE [sysof "one" 10 20 30 40; sysof "two" 11 21 31 41; sysof "six" 12 22 31 43] with
   | Ok r => match compute_anovar true r with
             | Ok (s, _, W, _) => (option_map Qred (v_stat (h_analysis s)), v_differ (h_analysis s), W, h_said s)
             | _ => (None, false, [], None) end
   | _ => (None, false, [], None) end) = (Some (38 # 5)%Q, true, [[0; 0; -1]; [0; 0; 0]; [1; 0; 0]]%Z, Some (Between 10 11)).
Proof. split; [repeat (constructor; [reflexivity|]); constructor|vm_compute; reflexivity]. Qed.
Example C100_columns_example : few_values 2 [10; 20; 10; 20]%Q /\ all_different [11; 21; 31; 41]%Q.
Proof.
  split.
  - exists [10; 20]%Q. split; [cbn; lia|]. intros x [<-|[<-|[<-|[<-|[]]]]]; repeat (reflexivity || (constructor; reflexivity) || apply Exists_cons_tl).
  - intros i j I J E. do 4 (destruct i as [|i]; [do 4 (destruct j as [|j]; [first [reflexivity|vm_compute in E; discriminate]|]); cbn in J; lia|]). cbn in I. lia.
Qed.
Example C100_long_example : scored_on [bytes "ann"; bytes "bob"; bytes "cyd"] [three "a_rather_long_name" 1 2 3; three "two" 2 3 4] /\
  Exists (fun s => 17 < length (y_title s)) [three "a_rather_long_name" 1 2 3; three "two" 2 3 4].
Proof. split; [repeat constructor|]. constructor. apply Nat.leb_le. reflexivity. Qed.
