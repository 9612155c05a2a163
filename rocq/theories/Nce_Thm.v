(** C101: the normalised cross entropy of confidence scores. *)
From Coq Require Import List QArith Reals Qreals Arith Bool Lra Lia Permutation.
From Verif Require Import Nce_Model Nce_Spec Nce_Proofs.
Import ListNotations.
Local Open Scope R_scope.

(** When the counters agree with the paths, the report has for every speaker with words, and for the system
    over all words, the normalised cross entropy of the confidences of correct and incorrect words, which is a
    number exactly if both occur; the warning counts the confidences outside of 0 to 1 among all words. *)
Theorem C101_nce gs : Forall consistent gs -> exists l v out total, nce gs = (l, v, out, total) /\
  Forall2 speaker_value gs l /\ value_of (correct gs) (incorrect gs) v /\
  out = length (filter outside (words gs)) /\ total = length (words gs).
Proof.
  intro C. unfold nce. destruct (speakers_ok gs C 0 0 0%nat) as (l & -> & F). destruct (totals gs C) as (T1 & T2). rewrite !Rplus_0_l.
  exists l. eexists. eexists. eexists. split; [reflexivity|]. split; [exact F|]. split; [apply quotient_ok; assumption|]. split; [reflexivity|].
  rewrite (parts (words gs)). unfold correct, incorrect in T1, T2. rewrite map_length in T1, T2. lia.
Qed.
Print Assumptions C101_nce.

(** It is less than 1. *)
Theorem C101_below_one cs is x : cs <> [] -> is <> [] -> is_nce cs is x -> x < 1.
Proof.
  intros A B. rewrite is_nce_iff. intros ->. pose proof (bits_pos _ _ (len_pos _ A) (len_pos _ B)) as H.
  pose proof (sc_neg cs A). pose proof (si_neg is B). replace 1 with (bits (length cs) (length is) / bits (length cs) (length is)) by (field; lra).
  apply div_lt; lra.
Qed.
Print Assumptions C101_below_one.

(** The same confidence for all words gives at most 0, and 0 exactly if it is the part of correct words. *)
Theorem C101_constant cs is c r x : cs <> [] -> is <> [] -> used c r -> Forall (fun y => y = c) cs -> Forall (fun y => y = c) is -> is_nce cs is x ->
  x <= 0 /\ (x = 0 <-> r = INR (length cs) / (INR (length cs) + INR (length is))).
Proof.
  intros A B U FC FI. rewrite is_nce_iff. intro X.
  assert (EC : sc cs = INR (length cs) * log2 r).
  { apply used_iff in U. clear - U FC. induction FC as [|y l -> _ IH]; [unfold sc; cbn; lra|]. unfold sc. cbn [map rsum]. fold (sc l). rewrite IH, U. cbn [length]. rewrite S_INR. ring. }
  assert (EI : si is = INR (length is) * log2 (1 - r)).
  { apply used_iff in U. clear - U FI. induction FI as [|y l -> _ IH]; [unfold si; cbn; lra|]. unfold si. cbn [map rsum]. fold (si l). rewrite IH, U. cbn [length]. rewrite S_INR. ring. }
  rewrite EC, EI in X. pose proof (len_pos _ A) as LA. pose proof (len_pos _ B) as LB. pose proof (bits_pos _ _ LA LB) as H. pose proof (share _ _ LA LB) as S.
  pose proof (used_bounds c r U) as RB. clear - X LA LB H S RB. apply lt_0_INR in LA, LB.
  set (h := bits (length cs) (length is)) in *. set (n := INR (length cs)) in *. set (m := INR (length is)) in *. set (p := n / (n + m)) in *.
  assert (EH : h = - (n * log2 p + m * log2 (1 - p))) by reflexivity.
  assert (NP : n = (n + m) * p) by (unfold p; field; lra). assert (MP : m = (n + m) * (1 - p)) by (unfold p; field; lra).
  assert (LD : forall a b, 0 < a -> 0 < b -> log2 a - log2 b = ln (a / b) / ln 2).
  { intros a b PA PB. unfold log2. rewrite ln_quot by assumption. field. pose proof ln2_pos. lra. }
  assert (ES : h + n * log2 r + m * log2 (1 - r) = (n * ln (r / p) + m * ln ((1 - r) / (1 - p))) / ln 2).
  { rewrite EH. replace (- (n * log2 p + m * log2 (1 - p)) + n * log2 r + m * log2 (1 - r)) with (n * (log2 r - log2 p) + m * (log2 (1 - r) - log2 (1 - p))) by ring.
    rewrite !LD by lra. field. pose proof ln2_pos. lra. }
  assert (Q1 : 0 < r / p) by (apply Rdiv_lt_0_compat; lra). assert (Q2 : 0 < (1 - r) / (1 - p)) by (apply Rdiv_lt_0_compat; lra).
  assert (Z : n * (r / p - 1) + m * ((1 - r) / (1 - p) - 1) = 0) by (rewrite NP at 1; rewrite MP at 2; field; lra).
  rewrite ES in X. clear ES EH. pose proof ln2_pos as L2. pose proof (Rinv_0_lt_compat _ L2) as I2. pose proof (Rinv_0_lt_compat _ H) as IH.
  pose proof (ln_le _ Q1) as B1. pose proof (ln_le _ Q2) as B2. set (N := n * ln (r / p) + m * ln ((1 - r) / (1 - p))) in *.
  assert (NN : N <= 0) by (unfold N; nra). assert (EX : x = N * (/ ln 2 * / h)) by (rewrite X; unfold Rdiv; ring).
  assert (IP : 0 < / ln 2 * / h) by nra. split; [rewrite EX; nra|]. split.
  - intro X0. destruct (Req_dec (r / p) 1) as [E|D].
    + apply (f_equal (fun t => t * p)) in E. unfold Rdiv in E. rewrite Rmult_assoc, Rinv_l in E by lra. lra.
    + exfalso. pose proof (ln_lt _ Q1 D) as B3. assert (N < 0) by (unfold N; nra). rewrite EX in X0. nra.
  - intro E. rewrite EX. assert (N = 0); [|nra]. unfold N. replace (r / p) with 1 by (rewrite E; field; lra). replace ((1 - r) / (1 - p)) with 1 by (rewrite E; field; lra).
    rewrite ln_1. ring.
Qed.
Print Assumptions C101_constant.

(** Higher confidences of correct words and lower ones of incorrect words never lower it ... *)
Theorem C101_monotone cs is cs' is' x x' : cs <> [] -> is <> [] -> Forall2 Qle cs cs' -> Forall2 Qle is' is ->
  is_nce cs is x -> is_nce cs' is' x' -> x <= x'.
Proof.
  intros A B FC FI. rewrite !is_nce_iff. intros -> ->. rewrite <- (f2_len _ _ _ FC), (f2_len _ _ _ FI).
  apply div_le; [apply bits_pos; apply len_pos; assumption|].
  assert (C : sc cs <= sc cs').
  { clear - FC. induction FC as [|y y' l l' L _ IH]; [lra|]. unfold sc. cbn [map rsum]. fold (sc l) (sc l').
    pose proof (used_mono _ _ _ _ (used_clip y) (used_clip y') L) as M. pose proof (log2_mono _ _ (proj1 (clip_bounds y)) M). lra. }
  assert (I : si is <= si is').
  { clear - FI. induction FI as [|y y' l l' L _ IH]; [lra|]. unfold si. cbn [map rsum]. fold (si l) (si l').
    pose proof (used_mono _ _ _ _ (used_clip y) (used_clip y') L) as M. pose proof (clip_bounds y). pose proof (clip_bounds y').
    pose proof (log2_mono (1 - Q2R (clip y')) (1 - Q2R (clip y)) ltac:(lra) ltac:(lra)). lra. }
  lra.
Qed.
Print Assumptions C101_monotone.

(** ... and raise it when one changes between floor and ceiling. *)
Theorem C101_strict a b is c c' x x' : is <> [] -> (low <= c)%Q -> (c < c')%Q -> (c' <= high)%Q ->
  (is_nce (a ++ c :: b) is x -> is_nce (a ++ c' :: b) is x' -> x < x') /\
  (is_nce is (a ++ c :: b) x -> is_nce is (a ++ c' :: b) x' -> x' < x).
Proof.
  intros B L M H. assert (U : used c (Q2R c)) by (right; left; repeat split; auto; apply Qlt_le_weak; eapply Qlt_le_trans; eassumption).
  assert (U' : used c' (Q2R c')) by (right; left; repeat split; auto; apply Qlt_le_weak; eapply Qle_lt_trans; eassumption).
  apply Qlt_Rlt in M. pose proof (used_bounds _ _ U). pose proof (used_bounds _ _ U'). apply used_iff in U, U'.
  assert (P : forall y, (0 < length (a ++ y :: b))%nat) by (intro y; rewrite app_length; cbn; lia).
  assert (LE : length (a ++ c :: b) = length (a ++ c' :: b)) by (rewrite !app_length; reflexivity).
  split; rewrite !is_nce_iff; intros -> ->; rewrite LE; (apply div_lt; [apply bits_pos; auto; apply len_pos, B|]).
  - rewrite !sc_app. unfold sc. cbn [map rsum]. fold (sc b). rewrite <- U, <- U'. pose proof (log2_strict (Q2R c) (Q2R c') ltac:(lra) M). lra.
  - rewrite !si_app. unfold si. cbn [map rsum]. fold (si b). rewrite <- U, <- U'. pose proof (log2_strict (1 - Q2R c') (1 - Q2R c) ltac:(lra) ltac:(lra)). lra.
Qed.
Print Assumptions C101_strict.

(** The order of the words does not matter. *)
Theorem C101_order cs is cs' is' x : Permutation cs cs' -> Permutation is is' -> is_nce cs is x -> is_nce cs' is' x.
Proof.
  intros A B. rewrite !is_nce_iff. intros ->. rewrite (Permutation_length A), (Permutation_length B).
  unfold sc, si. rewrite (rsum_perm _ _ (Permutation_map _ A)), (rsum_perm _ _ (Permutation_map _ B)). reflexivity.
Qed.
Print Assumptions C101_order.

(** A speaker whose words are all correct, or all incorrect, has no value: the report shows "nan", also if the
    confidences are perfect. *)
Theorem C101_all_correct_refuted : exists g, consistent g /\ Forall (fun t => t_eval t = Corr /\ t_conf t = 1%Q) (words [g]) /\ words [g] <> [] /\
  nce [g] = ([None], None, 0%nat, 2%nat).
Proof.
  exists {| u_corr := 2; u_sub := 0; u_ins := 0; u_paths := [[{| t_eval := Corr; t_empty := false; t_conf := 1 |}; {| t_eval := Corr; t_empty := false; t_conf := 1 |}]] |}.
  split; [split; reflexivity|]. split; [repeat constructor|]. split; [discriminate|]. reflexivity.
Qed.
Print Assumptions C101_all_correct_refuted.

Definition st (v : verdict) (c : Q) : step := {| t_eval := v; t_empty := false; t_conf := c |}.
Example C101_example : Forall consistent
  [{| u_corr := 2; u_sub := 1; u_ins := 0; u_paths := [[st Corr (9 # 10); st Sub (3 # 10)]; [st Del 0; st Corr (12 # 10)]] |};
   {| u_corr := 1; u_sub := 0; u_ins := 1; u_paths := [[st Corr (1 # 2); st Ins (1 # 2)]] |}] /\
  snd (fst (nce [{| u_corr := 2; u_sub := 1; u_ins := 0; u_paths := [[st Corr (9 # 10); st Sub (3 # 10)]; [st Del 0; st Corr (12 # 10)]] |}])) = 1%nat.
Proof. split; [repeat (constructor; [split; reflexivity|]); constructor|reflexivity]. Qed.
Example C101_constant_example : used (1 # 2) (Q2R (1 # 2)) /\ exists x, is_nce [1 # 2; 1 # 2]%Q [1 # 2; 1 # 2]%Q x.
Proof.
  split; [right; left; repeat split; discriminate|]. eexists. apply is_nce_iff. reflexivity.
Qed.
Example C101_strict_example : (low <= 1 # 2)%Q /\ (1 # 2 < 3 # 4)%Q /\ (3 # 4 <= high)%Q.
Proof. repeat split; discriminate. Qed.
