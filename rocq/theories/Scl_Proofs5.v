(** Proofs about the command line of sclite: the run. *)
From Coq Require Import String.
From Coq Require Import List ZArith NArith Arith Bool Lia.
From Verif Require Store_Model Store_Proofs.
From Verif Require Import Base Sgml_Model Scl_Model Scl_Spec Scl_Proofs1 Scl_Proofs2 Scl_Proofs3 Scl_Proofs4.
Import ListNotations.
Local Open Scope list_scope.
Local Open Scope res_scope.

(** ** Names *)
Lemma split_slash_spec s : match split_slash s with Some (d, b) => s = d ++ 47%N :: b /\ ~ In 47%N b | None => ~ In 47%N s end.
Proof.
  induction s as [|c r IH]; cbn [split_slash]; [intros []|]. destruct (split_slash r) as [[d b]|].
  - destruct IH as [-> IH]. split; [reflexivity|exact IH].
  - destruct (N.eqb_spec c 47) as [->|N].
    + split; [reflexivity|exact IH].
    + intros [K|K]; [congruence|contradiction].
Qed.
(** the state of a run *)
Record fin (l : list option_) (s : st) : Prop := {
  f_b : forall x, b_ s x = b2 l x; f_s : forall y, y <> SRefFmt -> s_ s y = sspec l y; f_w : width s = number (value l Width) 1000; f_h : hyps s = map mk (hyps_of l) }.
Lemma root_ok l s name : fin l s -> root_is l name (out_root s name).
Proof.
  intros V. unfold out_root. pose proof (split_slash_spec name) as H. rewrite !(f_s _ _ V) by discriminate. cbn [sspec].
  destruct (split_slash name) as [[d b]|].
  - destruct H as [-> H]. exists (d ++ [47%N]), b. split; [rewrite <- app_assoc; reflexivity|]. split; [exact H|]. split; [right; exists d; reflexivity|].
    destruct (value l Directory) as [o|]; [rewrite <- app_assoc; destruct (value l Name); reflexivity|]. rewrite same_dec.
    destruct (list_eq_dec N.eq_dec d (B ".")) as [->|N]; cbn [negb].
    + change (B "." ++ [47%N]) with (B "./"). destruct (list_eq_dec N.eq_dec (B "./") (B "./")); [|congruence]. destruct (value l Name); reflexivity.
    + destruct (list_eq_dec N.eq_dec (d ++ [47%N]) (B "./")) as [K|_].
      * exfalso. apply N. change (B "./") with (B "." ++ [47%N]) in K. apply app_inj_tail in K. exact (proj1 K).
      * rewrite <- app_assoc. destruct (value l Name); reflexivity.
  - exists [], name. split; [reflexivity|]. split; [exact H|]. split; [left; reflexivity|].
    destruct (value l Directory) as [o|]; [rewrite <- app_assoc; destruct (value l Name); reflexivity|]. change (same (B ".") (B ".")) with true. cbn [negb].
    destruct (list_eq_dec N.eq_dec [] (B "./")) as [K|_]; [discriminate|]. destruct (value l Name); reflexivity.
Qed.

(** ** Reports *)
Lemma reports_ok l s root x k : fin l s ->
  reports s root (Some x) k = Ok (flat_map (fun r => if shown l r then [Report r x (if shown l RStdout then None else Some root) (line_of l r)] else []) k).
Proof.
  intros V. induction k as [|r k IH]; [reflexivity|]. cbn [reports flat_map use]. rewrite IH, !(f_b _ _ V), (f_w _ _ V). cbn [b2]. destruct (shown l r); [|reflexivity].
  cbn [rbind app]. unfold line_of, number. destruct r; reflexivity.
Qed.
Lemma analyses_ok l s root x k : fin l s -> analyses s root (Some x) k = Ok (flat_map (fun c => if analysed l c then [Analysis c x root] else []) k).
Proof.
  intros V. induction k as [|r k IH]; [reflexivity|]. cbn [analyses flat_map use]. rewrite IH, !(f_b _ _ V). cbn [b2 bspec]. change (asked (cnames r) (conf_words l)) with (analysed l r).
  destruct (analysed l r); reflexivity.
Qed.
Lemma outputs_both l s root x : fin l s -> exists a b, reports s root (Some x) written = Ok a /\ analyses s root (Some x) Scl_Model.analysed = Ok b /\ a ++ b = outputs l x root.
Proof. intros V. eexists. eexists. split; [apply reports_ok; exact V|]. split; [apply analyses_ok; exact V|]. reflexivity. Qed.
Lemma dumps_ok scor f n : forall i, (forall j, i <= j < i + n -> scor j = Some (f j)) -> dumps scor n i = Ok (map (fun j => Dump (f j)) (seq i n)).
Proof.
  induction n as [|n IH]; intros i H; [reflexivity|]. cbn [dumps seq map]. rewrite (H i) by lia. cbn [use rbind]. rewrite IH by (intros j K; apply H; lia). reflexivity.
Qed.

(** ** Calls *)
Lemma call_ok e l s r h : fin l s -> s_ s SRef = Some r -> s_ s SRefFmt = Some (ref_format l) ->
  dec (align_call e s (mk h)) (fun c => exists m, scored e (on l UseDiff) (ref_format l) (snd (fst h)) m /\ c = call_for l r h m)
    (exists m, scored e (on l UseDiff) (ref_format l) (snd (fst h)) m).
Proof.
  intros V E1 E2. unfold align_call. rewrite E1, E2. change (h_fmt (mk h)) with (snd (fst h)). rewrite (f_b _ _ V BDiff). cbn [b2 bspec].
  assert (C : forall m rd, is_dp m = true -> rd = when (match m with StmDp => true | _ => false end) (reduce_of l) -> dp_call m rd s r (mk h) = call_for l r h m).
  { intros m rd M ->. unfold dp_call, call_for. rewrite !(f_b _ _ V), !(f_s _ _ V) by discriminate. cbn [b2 bspec sspec mk h_file h_title].
    unfold c1, c2, c3, segment_of. destruct (chars_of l) as [[? ?] ?]. destruct m; try discriminate; reflexivity. }
  assert (D : forall m, match m with TransDiff | StmDiff | TextStm => True | _ => False end -> diff_call m s r (mk h) = call_for l r h m).
  { intros m M. unfold diff_call, call_for. rewrite !(f_b _ _ V), !(f_s _ _ V) by discriminate. cbn [b2 bspec sspec mk h_file h_title]. destruct m; try destruct M; reflexivity. }
  assert (T : ctm_call s r (mk h) = call_for l r h CtmDp).
  { unfold ctm_call, call_for. rewrite !(f_b _ _ V), !(f_s _ _ V) by discriminate. reflexivity. }
  assert (RD : (b_ s BRedRef, b_ s BRedHyp) = reduce_of l) by (rewrite !(f_b _ _ V); cbn [b2 bspec]; destruct (reduce_of l); reflexivity).
  assert (Y : forall m c, scored e (on l UseDiff) (ref_format l) (snd (fst h)) m -> c = call_for l r h m ->
     dec (Ok c) (fun c => exists m, scored e (on l UseDiff) (ref_format l) (snd (fst h)) m /\ c = call_for l r h m) (exists m, scored e (on l UseDiff) (ref_format l) (snd (fst h)) m)).
  { intros m c S Q. apply dec_ok; exists m; [split; assumption|exact S]. }
  destruct h as [[hf fm] t]. cbn [fst snd] in *.
  destruct (same (ref_format l) (B "trn") && same fm (B "trn")) eqn:Q1.
  { apply andb_true_iff in Q1. destruct Q1 as [Q1 Q2]. apply same_iff in Q1. apply same_iff in Q2. rewrite Q1, Q2 in *.
    apply (Y (if on l UseDiff then TransDiff else TransDp)); [constructor|]. destruct (on l UseDiff); cbn [negb]; [apply D; exact I|apply C; reflexivity]. }
  destruct (same (ref_format l) (B "stm") && same fm (B "ctm")) eqn:Q2.
  { apply andb_true_iff in Q2. destruct Q2 as [Q2 Q3]. apply same_iff in Q2. apply same_iff in Q3. rewrite Q2, Q3 in *.
    apply (Y (if on l UseDiff then StmDiff else StmDp)); [constructor|]. destruct (on l UseDiff); cbn [negb]; [apply D; exact I|apply C; [reflexivity|]]. rewrite RD. reflexivity. }
  destruct (same (ref_format l) (B "ctm") && same fm (B "ctm")) eqn:Q3.
  { apply andb_true_iff in Q3. destruct Q3 as [Q3 Q4]. apply same_iff in Q3. apply same_iff in Q4. rewrite Q3, Q4 in *. apply (Y CtmDp); [constructor|exact T]. }
  destruct (same (ref_format l) (B "stm") && same fm (B "txt")) eqn:Q4.
  { destruct (e_diff e) eqn:DE.
    - apply andb_true_iff in Q4. destruct Q4 as [Q4 Q5]. apply same_iff in Q4. apply same_iff in Q5. rewrite Q4, Q5 in *. apply (Y TextStm); [constructor; exact DE|apply D; exact I].
    - assert (N : ~ exists m, scored e (on l UseDiff) (ref_format l) fm m).
      { apply andb_true_iff in Q4. destruct Q4 as [Q4 Q5]. apply same_iff in Q4. apply same_iff in Q5. rewrite Q4, Q5 in *. intros (m & K). inversion K. congruence. }
      split; [intros K; contradiction|]. split; [reflexivity|right; exact N]. }
  assert (N : ~ exists m, scored e (on l UseDiff) (ref_format l) fm m).
  { intros (m & K). remember (ref_format l) as rf. clear Heqrf. inversion K; subst; discriminate. }
  split; [intros K; contradiction|]. split; [reflexivity|right; exact N].
Qed.

(** ** Rounds *)
Lemma rounds_hyps e l s r : fin l s -> s_ s SRef = Some r -> s_ s SRefFmt = Some (ref_format l) -> forall hs pre i scor, hyps_of l = pre ++ hs -> length pre = i ->
  (forall j, j < i -> scor j = Some (FromHyp j)) ->
  dec (rounds e s [] (length hs) i scor) (fun x => scoring e l r i hs (fst x) /\ forall j, j < i + length hs -> snd x j = Some (FromHyp j))
    (Forall (fun h => exists m, scored e (on l UseDiff) (ref_format l) (snd (fst h)) m) hs /\ forall j, i <= j < i + length hs -> e_aligns e j = true).
Proof.
  intros V E1 E2. induction hs as [|h hs IH]; intros pre i scor H L SC; cbn [length rounds].
  - apply dec_ok; [split; [constructor|intros j K; apply SC; cbn [length] in K; lia]|]. split; [constructor|intros j K; cbn [length] in K; lia].
  - replace (nth_error [] i) with (@None str) by (destruct i; reflexivity). cbn [length]. rewrite Nat.sub_0_r.
    replace (nth_error (hyps s) i) with (Some (mk h)).
    2: { rewrite (f_h _ _ V), H, map_app, nth_error_app2 by (rewrite map_length; lia). rewrite map_length, L, Nat.sub_diag. reflexivity. }
    apply (dec_iff _ _ (((exists m, scored e (on l UseDiff) (ref_format l) (snd (fst h)) m) /\ e_aligns e i = true) /\
      (Forall (fun h => exists m, scored e (on l UseDiff) (ref_format l) (snd (fst h)) m) hs /\ forall j, S i <= j < S i + length hs -> e_aligns e j = true))).
    { split.
      - intros ((A1 & A2) & A3 & A4). split; [constructor; assumption|]. intros j K. destruct (Nat.eq_dec j i) as [->|N]; [exact A2|apply A4; lia].
      - intros (A1 & A2). inversion A1; subst. split; [split; [assumption|apply A2; lia]|]. split; [assumption|]. intros j K. apply A2. lia. }
    apply dec_bind with (R := fun x => exists m, scored e (on l UseDiff) (ref_format l) (snd (fst h)) m /\ fst (fst x) = [Align (call_for l r h m)] /\
      snd (fst x) = out_root s (fst (fst h)) /\ forall j, j < S i -> snd x j = Some (FromHyp j)).
    + apply dec_bind with (R := fun c => exists m, scored e (on l UseDiff) (ref_format l) (snd (fst h)) m /\ c = call_for l r h m); [apply call_ok; assumption|].
      intros c _ (m & S1 & ->). destruct (e_aligns e i).
      * apply dec_ok; [|reflexivity]. exists m. split; [exact S1|]. split; [reflexivity|]. split; [reflexivity|]. intros j K. cbn [snd]. destruct (Nat.eqb_spec j i) as [->|N]; [reflexivity|apply SC; lia].
      * split; [discriminate|]. split; [reflexivity|right; discriminate].
    + intros [[ev root] scor1] _ (m & S1 & R1 & R2 & R3). cbn [fst snd] in R1, R2, R3. subst ev root. rewrite (R3 i) by lia.
      destruct (outputs_both l s (out_root s (fst (fst h))) (FromHyp i) V) as (a & b & -> & -> & AB). cbn [rbind].
      apply (dec_iff _ _ ((Forall (fun h => exists m, scored e (on l UseDiff) (ref_format l) (snd (fst h)) m) hs /\ forall j, S i <= j < S i + length hs -> e_aligns e j = true) /\ True)); [tauto|].
      apply dec_bind with (R := fun x => scoring e l r (S i) hs (fst x) /\ forall j, j < S i + length hs -> snd x j = Some (FromHyp j)).
      * apply (IH (pre ++ [h])); [rewrite <- app_assoc; exact H|rewrite app_length; cbn [length]; lia|exact R3].
      * intros [rest scor2] _ [K1 K2]. cbn [fst snd] in K1, K2. apply dec_ok; [|exact I]. cbn [fst snd]. split; [|intros j K; apply K2; lia].
        change ([Align (call_for l r h m)] ++ a ++ b ++ rest) with (Align (call_for l r h m) :: a ++ b ++ rest). rewrite app_assoc, AB.
        apply sc_cons; [exact S1|apply root_ok; exact V|exact K1].
Qed.
Lemma rounds_piped e l s titles : fin l s -> hyps_of l = [] -> forall ts pre i, titles = pre ++ ts -> length pre = i -> forall scor, (forall j, j < length titles -> scor j = Some (FromPipe j)) ->
  exists ev, rounds e s titles (length ts) i scor = Ok (ev, scor) /\ reporting l i ts ev.
Proof.
  intros V H0. induction ts as [|t ts IH]; intros pre i H L scor SC; cbn [length rounds].
  - exists []. split; [reflexivity|constructor].
  - replace (nth_error titles i) with (Some t) by (rewrite H, nth_error_app2 by lia; rewrite L, Nat.sub_diag; reflexivity). cbn [rbind].
    rewrite SC by (rewrite H, app_length; cbn [length]; lia).
    destruct (outputs_both l s (out_root s t) (FromPipe i) V) as (a & b & -> & -> & AB). cbn [rbind].
    destruct (IH (pre ++ [t]) (Datatypes.S i)) with (scor := scor) as (ev & E & RP); [rewrite <- app_assoc; exact H|rewrite app_length; cbn [length]; lia|exact SC|].
    rewrite E. cbn [rbind]. eexists. split; [reflexivity|]. cbn [app]. rewrite app_assoc, AB. constructor; [apply root_ok; exact V|exact RP].
Qed.
