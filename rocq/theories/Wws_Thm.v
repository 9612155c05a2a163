(** C109: the word weighted scores. *)
From Coq Require Import String List Arith ZArith NArith QArith Bool Lia.
From Verif Require Import Base Text_Model Word_Model Store_Model NetDp_Model Path_Model Wwl_Model Wws_Model Wws_Spec Wws_Proofs.
Import ListNotations.
Local Open Scope res_scope.
Local Open Scope nat_scope.

(** ** The sums *)
(** For every speaker, and over all of them, the sums are those of the weights of the words. *)
Theorem C109_sums : forall W v title sc, Forall (fun p => Forall (Forall (known W v)) (snd p)) sc ->
  do_weighted_score W title sc =
  Ok {| f_title := title; f_all := score_of v (steps_of sc); f_spkr := map (fun p => (fst p, score_of v (concat (snd p)))) sc |}.
Proof.
  intros W v title sc F. unfold do_weighted_score. rewrite (all_ok W v sc F). cbn [rbind app]. rewrite plus_zero. reflexivity.
Qed.
Print Assumptions C109_sums.

(** The sums of all are the sums over the speakers, and the weight of the reference is that of its correct,
    substituted and deleted words. *)
Theorem C109_consistent : forall v p q,
  u_ref (score_of v (p ++ q)) = (u_ref (score_of v p) + u_ref (score_of v q))%Z
  /\ u_ref (score_of v p) = (u_corr (score_of v p) + sum v (texts ref_side is_sub p) + u_del (score_of v p))%Z.
Proof.
  intros v p q. split; [rewrite score_app; reflexivity|]. cbn [u_ref u_corr u_del score_of].
  induction p as [|s p IH]; [reflexivity|]. change (s :: p) with ([s] ++ p). rewrite !texts_app, !sum_app, IH.
  destruct s as [[[a|] b] []]; cbn; lia.
Qed.
Print Assumptions C109_consistent.

(** With the weight 1 the sums count the steps, substitutions twice. *)
Theorem C109_weight_one : forall title sc, Forall (fun p => Forall (Forall (known (fun _ => Ok weight_one) (fun _ => weight_one))) (snd p)) sc ->
  exists spk, do_weighted_score (fun _ => Ok weight_one) title sc = Ok {| f_title := title;
    f_all := {| u_ref := 1000 * number (fun k => negb (is_ins k)) (steps_of sc); u_corr := 1000 * number is_corr (steps_of sc);
                u_sub := 2000 * number is_sub (steps_of sc); u_ins := 1000 * number is_ins (steps_of sc);
                u_del := 1000 * number is_del (steps_of sc) |}%Z; f_spkr := spk |}.
Proof.
  intros title sc F. eexists. rewrite (C109_sums _ _ title sc F).
  assert (K : Forall (known (fun _ => Ok weight_one) (fun _ => weight_one)) (steps_of sc)).
  { apply Forall_forall. intros s I. unfold steps_of in I. apply in_concat in I. destruct I as (p & I & IS). apply in_flat_map in I. destruct I as (x & IX & IP).
    rewrite Forall_forall in F. specialize (F x IX). rewrite Forall_forall in F. specialize (F p IP). rewrite Forall_forall in F. apply F, IS. }
  rewrite Forall_forall in K. do 2 f_equal. unfold score_of. change weight_one with 1000%Z.
  rewrite !sum_one; [f_equal; lia|..]; intros s I; specialize (K s I); destruct s as [[[a|] [b|]] []]; cbn in *; try contradiction; discriminate.
Qed.
Print Assumptions C109_weight_one.

(** ** The rows *)
(** The weightings are scored in their order, all of them, each file column with its own weights; when a
    file cannot be loaded there is no report. *)
Theorem C109_rows : forall e load sc one fs ls,
  Forall2 (fun f l => load f = Ok (Some l)) fs ls ->
  (forall n W, In (n, W) (weightings e one ls) -> exists v, Forall (fun p => Forall (Forall (known W v)) (snd p)) sc) ->
  exists t rows, perform e load sc one fs = Ok (Some t) /\ used t = Ok rows
    /\ Forall2 (fun p f => do_weighted_score (snd p) (fst p) sc = Ok f) (weightings e one ls) rows.
Proof.
  intros e load sc one fs ls F2 KN.
  assert (KD : forall n W, In (n, W) (weightings e one ls) -> forall d, exists f, do_weighted_score W d sc = Ok f).
  { intros n W I d. destruct (KN n W I) as (v & F). eexists. apply (C109_sums W v d sc F). }
  assert (KL : forall l j d, In l ls -> j < length (l_desc l) -> exists f, do_weighted_score (weight e l j) d sc = Ok f).
  { intros l j d I L. apply (KD (nth j (l_desc l) []) (weight e l j)). unfold weightings. apply in_or_app. right. apply in_flat_map. exists l. split; [exact I|].
    replace (weight e l j) with (nth j (map (fun k => weight e l k) (seq 0 (length (l_desc l)))) (fun _ => Undef)).
    - rewrite <- combine_nth by (rewrite map_length, seq_length; reflexivity). apply nth_In. rewrite combine_length, map_length, seq_length. lia.
    - rewrite (nth_indep _ _ (weight e l 0)) by (rewrite map_length, seq_length; exact L). rewrite (map_nth (fun k => weight e l k)), seq_nth by exact L. reflexivity. }
  unfold perform. destruct one.
  - destruct (KD (bytes "Weight 1") (fun _ => Ok 1000%Z)) with (d := bytes "Weight 1") as (f & E); [left; reflexivity|].
    change (fun _ : list N => Ok weight_one) with (fun _ : list N => Ok 1000%Z). rewrite E. cbn [rbind].
    destruct (push_ok (alloc (length fs + 1)) [] f) as (t0 & -> & H0).
    { unfold filled, alloc. cbn. rewrite repeat_length. repeat split; lia. } { unfold alloc. cbn. rewrite repeat_length. lia. }
    cbn [rbind]. destruct (files_ok e load sc fs ls F2 KL t0 _ H0) as (t & gs & -> & H & G).
    exists t, (f :: gs). split; [reflexivity|]. split; [apply filled_used; exact H|]. constructor; [exact E|exact G].
  - cbn [rbind]. destruct fs as [|f0 fs].
    + inversion F2; subst. eexists. exists []. split; [reflexivity|]. split; [reflexivity|constructor].
    + destruct (files_ok e load sc (f0 :: fs) ls F2 KL (alloc (length (f0 :: fs) + 0)) []) as (t & gs & -> & H & G).
      { unfold filled, alloc. cbn [t_num t_func length firstn map]. rewrite repeat_length. repeat split; lia. }
      exists t, gs. split; [reflexivity|]. split; [apply filled_used; exact H|exact G].
Qed.
Print Assumptions C109_rows.

Theorem C109_unreadable : forall e load sc one fs1 f fs2 ls,
  Forall2 (fun f l => load f = Ok (Some l)) fs1 ls -> load f = Ok None ->
  (forall n W, In (n, W) (weightings e one ls) -> exists v, Forall (fun p => Forall (Forall (known W v)) (snd p)) sc) ->
  perform e load sc one (fs1 ++ f :: fs2) = Ok None.
Proof.
  intros e load sc one fs1 f fs2 ls F2 EN KN.
  assert (KD : forall n W, In (n, W) (weightings e one ls) -> forall d, exists f, do_weighted_score W d sc = Ok f).
  { intros n W I d. destruct (KN n W I) as (v & F). eexists. apply (C109_sums W v d sc F). }
  assert (KL : forall l j d, In l ls -> j < length (l_desc l) -> exists f, do_weighted_score (weight e l j) d sc = Ok f).
  { intros l j d I L. apply (KD (nth j (l_desc l) []) (weight e l j)). unfold weightings. apply in_or_app. right. apply in_flat_map. exists l. split; [exact I|].
    replace (weight e l j) with (nth j (map (fun k => weight e l k) (seq 0 (length (l_desc l)))) (fun _ => Undef)).
    - rewrite <- combine_nth by (rewrite map_length, seq_length; reflexivity). apply nth_In. rewrite combine_length, map_length, seq_length. lia.
    - rewrite (nth_indep _ _ (weight e l 0)) by (rewrite map_length, seq_length; exact L). rewrite (map_nth (fun k => weight e l k)), seq_nth by exact L. reflexivity. }
  assert (G : forall t gs, filled t gs -> files e load sc (fs1 ++ f :: fs2) t = Ok None).
  { clear KN KD. induction F2 as [|f1 l fs1 ls E F2 IH]; intros t gs H; cbn [app files].
    - rewrite EN. reflexivity.
    - rewrite E. cbn [rbind]. destruct (columns_ok e sc l (l_desc l) 0 t gs H) as (t1 & hs & -> & H1 & _). { intros j J d. apply KL; [left; reflexivity|exact (proj2 J)]. }
      cbn [rbind]. apply (IH (fun l' j d I => KL l' j d (or_intror I)) t1 _ H1). }
  unfold perform. rewrite app_length. cbn [length]. destruct one.
  - destruct (KD (bytes "Weight 1") (fun _ => Ok 1000%Z)) with (d := bytes "Weight 1") as (g & E); [left; reflexivity|].
    change (fun _ : list N => Ok weight_one) with (fun _ : list N => Ok 1000%Z). rewrite E. cbn [rbind].
    destruct (push_ok (alloc (length fs1 + S (length fs2) + 1)) [] g) as (t0 & -> & H0).
    { unfold filled, alloc. cbn. rewrite repeat_length. repeat split; lia. } { unfold alloc. cbn. rewrite repeat_length. lia. }
    cbn [rbind]. apply (G _ _ H0).
  - cbn [rbind]. apply (G _ []). unfold filled, alloc. cbn [t_num t_func length firstn map]. rewrite repeat_length. repeat split; lia.
Qed.
Print Assumptions C109_unreadable.

(** ** The reports *)
(** The numbers of a row: errors, correct words, substitutions, deletions and insertions in percent of the
    weight of the reference *)
Theorem C109_percents : forall u, exists err corr sub del ins, percents u = [err; corr; sub; del; ins]
  /\ is_percent err (u_sub u + u_del u + u_ins u) (u_ref u) /\ is_percent corr (u_corr u) (u_ref u) /\ is_percent sub (u_sub u) (u_ref u)
  /\ is_percent del (u_del u) (u_ref u) /\ is_percent ins (u_ins u) (u_ref u).
Proof.
  intros u. unfold percents. do 5 eexists. split; [reflexivity|]. split; [|repeat split; apply percent_ok].
  replace (u_sub u + 0 + u_del u + u_ins u + 0)%Z with (u_sub u + u_del u + u_ins u)%Z by lia. apply percent_ok.
Qed.
Print Assumptions C109_percents.

(** The summary has a row for each weighting, over all speakers; splits and merges are 0. *)
Theorem C109_total : forall t fs, used t = Ok fs -> exists rows, total_summary t = Ok rows
  /\ Forall2 (fun f r => fst r = f_title f /\ exists s m, snd r = percents (f_all f) ++ [s; m] /\ s == 0 /\ m == 0)%Q fs rows.
Proof.
  intros t fs U. unfold total_summary. rewrite U. cbn [rbind]. eexists. split; [reflexivity|]. clear U.
  assert (Z0 : forall r, (zq 0 r == 0)%Q).
  { intros r. destruct (percent_ok 0 r) as (A & B). destruct (Z.eq_dec r 0); [auto|]. specialize (B n). apply (Qmult_inj_r _ _ (inject_Z r)); [intros K; apply n; unfold Qeq, inject_Z in K; cbn [Qnum Qden] in K; lia|]. rewrite B. ring. }
  induction fs as [|f fs IH]; cbn [map]; constructor; [|exact IH]. split; [reflexivity|]. do 2 eexists. split; [reflexivity|]. split; apply Z0.
Qed.
Print Assumptions C109_total.

(** The report by speakers has for each speaker a row for each weighting, then one for each weighting over
    all speakers. *)
Theorem C109_speakers : forall t fs sc vs, used t = Ok fs -> t_func t <> [] ->
  Forall2 (fun v f => f_spkr f = map (fun p => (fst p, score_of v (concat (snd p)))) sc) vs fs ->
  speaker_summary (length sc) t = Ok
    (flat_map (fun p => map (fun x => (fst p, f_title (snd x), percents (score_of (fst x) (concat (snd p))))) (combine vs fs)) sc
     ++ map (fun f => (bytes "Ave", f_title f, percents (f_all f))) fs).
Proof.
  intros t fs sc vs U NE F. unfold speaker_summary. destruct (t_func t); [congruence|]. rewrite U. cbn [rbind].
  rewrite (each_ok (spkr_rows fs) (fun s => map (fun x => let p := nth s sc ([], []) in (fst p, f_title (snd x), percents (score_of (fst x) (concat (snd p))))) (combine vs fs))).
  - cbn [rbind]. do 2 f_equal. rewrite <- flat_map_concat_map. clear.
    enough (G : forall pre post, sc = pre ++ post -> flat_map (fun s => map (fun x => let p := nth s sc ([], []) in (fst p, f_title (snd x), percents (score_of (fst x) (concat (snd p))))) (combine vs fs)) (seq (length pre) (length post))
      = flat_map (fun p => map (fun x => (fst p, f_title (snd x), percents (score_of (fst x) (concat (snd p))))) (combine vs fs)) post) by (apply (G [] sc eq_refl)).
    intros pre post. revert pre. induction post as [|p post IH]; intros pre E; [reflexivity|]. cbn [length seq flat_map]. f_equal.
    + cbv zeta. rewrite E, nth_middle. reflexivity.
    + specialize (IH (pre ++ [p])). rewrite app_length, Nat.add_1_r in IH. apply IH. rewrite <- app_assoc. exact E.
  - intros s I. apply in_seq in I. unfold spkr_rows. clear U. induction F as [|v f vs fs E F IH]; [reflexivity|]. cbn [Alex_Model.each combine map].
    rewrite E. unfold Order_Model.get at 1. rewrite nth_error_map, (nth_error_nth' _ ([], [])) by lia. cbn [option_map rbind]. rewrite IH. reflexivity.
Qed.
Print Assumptions C109_speakers.

(** ** What does not hold *)
(** The error rate of the weight 1 is not the word error rate: both words of a substitution count, so that
    one word that was replaced gives 200 percent. *)
Theorem C109_word_error_rate_refuted : forall e load name a b,
  exists t f, perform e load [(name, [[(Some a, Some b, PSub)]])] true [] = Ok (Some t) /\ used t = Ok [f]
    /\ exists err l, percents (f_all f) = err :: l /\ (err == 200)%Q.
Proof.
  intros e load name a b. do 2 eexists. split; [reflexivity|]. split; [reflexivity|]. do 2 eexists. split; [reflexivity|]. vm_compute. reflexivity.
Qed.
Print Assumptions C109_word_error_rate_refuted.

(** Without any weighting the report by speakers reads the first cell of an empty array. *)
Theorem C109_no_weighting_refuted : forall e load sc, exists t, perform e load sc false [] = Ok (Some t) /\ speaker_summary (length sc) t = Undef.
Proof. intros e load sc. eexists. split; reflexivity. Qed.
Print Assumptions C109_no_weighting_refuted.

(** A file without columns, like "unity", is not reported. *)
Theorem C109_unity_refuted : forall go sort num file sc,
  exists t, perform ASCII (fun f => load_WWL num ASCII go sort f file) sc false [bytes "unity"] = Ok (Some t) /\ total_summary t = Ok [].
Proof.
  intros go sort num file sc. eexists. split; [vm_compute; reflexivity|]. reflexivity.
Qed.
Print Assumptions C109_unity_refuted.

(** ** Examples *)
Definition w (s : string) : word :=
  {| w_value := bytes s; w_intern := None; w_opt_del := false; w_frag := false; w_t1 := 0; w_t2 := 0; w_dur := 0; w_weight := 0 |}.
Definition two_speakers : scores :=
  [(bytes "ann", [[(Some (w "the"), Some (w "the"), PCorr); (Some (w "cat"), Some (w "hat"), PSub)]; [(None, Some (w "a"), PIns)]]);
   (bytes "bob", [[(Some (w "cat"), None, PDel); (Some (w "the"), Some (w "the"), PCorr)]])].
Definition animals : wwl :=
  {| l_desc := [bytes "A"; bytes "B"]; l_default := 500%Z;
     l_words := [{| ww_str := bytes "cat"; ww_weight := [Some 3000%Z; Some 4000%Z] |}] |}.
(** two columns of one file after the weight 1, which needs a larger array *)
Example wws_rows : exists t, perform ASCII (fun _ => Ok (Some animals)) two_speakers true [bytes "f"] = Ok (Some t) /\ length (t_func t) = 4
  /\ (exists rows, used t = Ok rows /\ map f_title rows = [bytes "Weight 1"; bytes "A"; bytes "B"]
      /\ map (fun f => u_ref (f_all f)) rows = [4000; 7000; 9000]%Z /\ map (fun f => u_sub (f_all f)) rows = [2000; 3500; 4500]%Z)
  /\ exists rows, speaker_summary 2 t = Ok rows /\ map (fun r => fst (fst r)) rows = [bytes "ann"; bytes "ann"; bytes "ann"; bytes "bob"; bytes "bob"; bytes "bob"; bytes "Ave"; bytes "Ave"; bytes "Ave"].
Proof.
  eexists. split; [vm_compute; reflexivity|]. split; [reflexivity|]. split; eexists; (split; [vm_compute; reflexivity|]); repeat split; reflexivity.
Qed.
(** the steps of the example have their words and weights under every weighting *)
Example wws_known : forall n W, In (n, W) (weightings ASCII true [animals]) ->
  exists v, Forall (fun p => Forall (Forall (known W v)) (snd p)) two_speakers.
Proof.
  intros n W I. cbn [weightings app flat_map combine l_desc animals map seq length] in I.
  destruct I as [I|[I|[I|[]]]]; injection I as <- <-.
  - exists (fun _ => 1000%Z). repeat constructor.
  - exists (fun x => match weight ASCII animals 0 x with Ok z => z | _ => 0%Z end). repeat constructor; vm_compute; reflexivity.
  - exists (fun x => match weight ASCII animals 1 x with Ok z => z | _ => 0%Z end). repeat constructor; vm_compute; reflexivity.
Qed.
