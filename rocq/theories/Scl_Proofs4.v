(** Proofs about the command line of sclite: the checks. *)
From Coq Require Import String.
From Coq Require Import List ZArith NArith Arith Bool Lia.
From Verif Require Store_Model Store_Proofs.
From Verif Require Import Base Sgml_Model Scl_Model Scl_Spec Scl_Proofs1 Scl_Proofs2 Scl_Proofs3.
Import ListNotations.
Local Open Scope list_scope.
Local Open Scope res_scope.

(** [r] is a value with R if P, and the end of the program otherwise *)
Definition dec {A} (r : res A) (R : A -> Prop) (P : Prop) : Prop := (P -> exists v, r = Ok v /\ R v) /\ (~ P -> r = Exit) /\ (P \/ ~ P).
Lemma dec_ok {A} (v : A) (R : A -> Prop) (P : Prop) : R v -> P -> dec (Ok v) R P.
Proof. intros H K. split; [intros _; exists v; split; [reflexivity|exact H]|]. split; [intros N; destruct (N K)|left; exact K]. Qed.
Lemma dec_bind {A B} (r : res A) (f : A -> res B) R R2 P Q : dec r R P -> (forall v, P -> R v -> dec (f v) R2 Q) -> dec (rbind r f) R2 (P /\ Q).
Proof.
  intros (A1 & A2 & A3) H. destruct A3 as [K|K].
  - destruct (A1 K) as (v & -> & V). cbn [rbind]. destruct (H v K V) as (B1 & B2 & B3). split; [intros [_ Y]; exact (B1 Y)|]. split; [intros N; apply B2; intros Y; apply N; split; assumption|].
    destruct B3 as [Y|Y]; [left; split; assumption|right; intros [_ Z]; contradiction].
  - rewrite (A2 K). cbn [rbind]. split; [intros [Y _]; contradiction|]. split; [reflexivity|right; intros [Y _]; contradiction].
Qed.
Lemma dec_iff {A} (r : res A) (R : A -> Prop) P Q : (P <-> Q) -> dec r R P -> dec r R Q.
Proof. intros I (A1 & A2 & A3). split; [intros K; apply A1, I, K|]. split; [intros K; apply A2; intros Y; apply K, I, Y|]. destruct A3 as [K|K]; [left; apply I, K|right; intros Y; apply K, I, Y]. Qed.
Lemma dec_require b P : (b = true <-> P) -> dec (require b) (fun _ => True) P.
Proof.
  intros I. unfold require. destruct b; [apply dec_ok; [trivial|apply I; reflexivity]|].
  split; [intros K; apply I in K; discriminate|]. split; [reflexivity|right; intros K; apply I in K; discriminate].
Qed.
Lemma dec_if {A} (b : bool) (r1 r2 : res A) R P : (b = true -> dec r1 R P) -> (b = false -> dec r2 R P) -> dec (if b then r1 else r2) R P.
Proof. destruct b; auto. Qed.

(** ** Outputs *)
Definition b2 (l : list option_) (x : bv) : bool := match x with BRep r => shown l r | _ => bspec l x end.
Record inv2 (l : list option_) (s : st) : Prop := {
  w_b : forall x, b_ s x = b2 l x; w_s : forall y, s_ s y = sspec l y; w_f : feedback s = level_of l; w_w : width s = number (value l Width) 1000; w_h : hyps s = map mk (hyps_of l) }.
Lemma undirected l : directed l = false -> report_words l = [] /\ conf_words l = [] /\ on l PipeOut = false.
Proof.
  induction l as [|o l IH]; [repeat split|]. cbn [directed existsb]. intros H. apply orb_false_elim in H. destruct H as [H1 H2]. destruct (IH H2) as (I1 & I2 & I3).
  unfold report_words, conf_words, on in *. cbn [flat_map existsb]. rewrite I1, I2, I3. destruct o as [| |f| | | | | | |]; try discriminate; try (repeat split; reflexivity).
  destruct f; try discriminate; repeat split; reflexivity.
Qed.
Lemma outputs_ok l s : inv l s -> dec (outputs_check s) (inv2 l) (on l PipeOut = true -> asked (rnames RStdout) (report_words l) = false).
Proof.
  intros V. unfold outputs_check. rewrite (v_b _ _ V BPipeOut), (v_b _ _ V (BRep RStdout)). cbn [bspec].
  apply (dec_iff _ _ ((on l PipeOut = true -> asked (rnames RStdout) (report_words l) = false) /\ True)); [tauto|].
  apply dec_bind with (R := fun s1 => (forall x, b_ s1 x = b_ s x) /\ (forall y, s_ s1 y = s_ s y) /\ width s1 = width s /\ hyps s1 = hyps s /\ feedback s1 = if on l PipeOut then 0%Z else feedback s).
  - destruct (on l PipeOut).
    + apply (dec_iff _ _ (asked (rnames RStdout) (report_words l) = false /\ True)); [intuition|]. apply (dec_bind _ _ (fun _ => True)).
      * apply dec_require. destruct (asked _ _); cbn; intuition.
      * intros [] _ _. apply dec_ok; [|exact I]. repeat split.
    + apply dec_ok; [repeat split|discriminate].
  - intros s1 P (S1 & S2 & S3 & S4 & S5). apply dec_ok; [|exact I].
    set (s2 := if forallb _ _ && _ then _ else _).
    assert (K : (forall x, b_ s2 x = b2 l x) /\ (forall y, s_ s2 y = sspec l y) /\ width s2 = number (value l Width) 1000 /\ hyps s2 = map mk (hyps_of l) /\ feedback s2 = if on l PipeOut then 0%Z else number (value l Level) 1).
    { unfold s2. clear s2. rewrite (S1 BOutSet), (v_b _ _ V BOutSet). cbn [bspec].
      assert (E : (forall y, s_ s1 y = sspec l y) /\ width s1 = number (value l Width) 1000 /\ hyps s1 = map mk (hyps_of l) /\ feedback s1 = if on l PipeOut then 0%Z else number (value l Level) 1).
      { split; [intros y; rewrite S2; apply (v_s _ _ V)|]. split; [rewrite S3; apply (v_w _ _ V)|]. split; [rewrite S4; apply (v_h _ _ V)|]. rewrite S5, (v_f _ _ V). reflexivity. }
      destruct (directed l) eqn:D; cbn [negb]; rewrite ?andb_false_r, ?andb_true_r.
      - split; [|exact E]. intros x. rewrite S1, (v_b _ _ V). unfold b2, shown. rewrite D. destruct x; reflexivity.
      - destruct (undirected l D) as (U1 & U2 & U3).
        assert (Z : forall r, b_ s1 (BRep r) = false) by (intros r; rewrite S1, (v_b _ _ V); cbn [bspec]; rewrite U1; reflexivity).
        replace (forallb (fun r => negb (b_ s1 (BRep r))) all_reps) with true by (symmetry; apply forallb_forall; intros r _; rewrite Z; reflexivity).
        split; [|exact E]. intros x. unfold b2, shown. rewrite D. destruct x; try (rewrite !setb_other by discriminate; rewrite S1, (v_b _ _ V); reflexivity).
        destruct r; rewrite ?setb_same; try reflexivity; rewrite !setb_other by discriminate; try apply Z. }
    clearbody s2. destruct K as (K1 & K2 & K3 & K4 & K5).
    rewrite K1, (K1 BOutSet), (K1 BFbSet), K5. cbn [b2 bspec].
    assert (F : (if shown l RStdout && directed l && (0 <? if on l PipeOut then 0 else number (value l Level) 1)%Z && negb (some (value l Level)) then 0%Z else if on l PipeOut then 0%Z else number (value l Level) 1) = level_of l).
    { unfold level_of. destruct (on l PipeOut); [rewrite andb_false_r; reflexivity|]. destruct (value l Level); cbn [some negb number]; [rewrite andb_false_r; reflexivity|].
      rewrite (andb_comm (directed l)). cbn [Z.ltb Z.compare]. rewrite !andb_true_r. reflexivity. }
    destruct (_ && _ && _ && _); split; cbn [b_ s_ feedback width hyps set_feedback]; try assumption. rewrite K5. exact F.
Qed.

(** ** Inputs *)
Record inv3 (l : list option_) (s : st) : Prop := {
  x_b : forall x, b_ s x = b2 l x; x_s : forall y, y <> SRefFmt -> s_ s y = sspec l y; x_r : s_ s SRefFmt = Some (ref_format l);
  x_f : feedback s = level_of l; x_w : width s = number (value l Width) 1000; x_h : hyps s = map mk (hyps_of l) }.
Lemma one_of_iff l w : one_of (map B l) w = true <-> among l w.
Proof. unfold one_of, among. rewrite existsb_exists. split; [intros (x & I & E); apply same_iff in E; subst x; exact I|intros I; exists w; split; [exact I|apply same_iff; reflexivity]]. Qed.
Lemma forallb_mk (f : hyp -> bool) (P : list N -> Prop) (g : list N * list N * list N -> list N) (k : list (list N * list N * list N)) :
  (forall h, f (mk h) = true <-> P (g h)) -> forallb f (map mk k) = true <-> Forall P (map g k).
Proof.
  intros H. induction k as [|h k IH]; cbn [map forallb]; [split; constructor|]. rewrite andb_true_iff, IH, H. split; [intros [A1 A2]; constructor; assumption|intros A1; inversion A1; split; assumption].
Qed.
Lemma inputs_ok e l s : inv2 l s -> on l PipeIn = false -> dec (inputs_check e s) (inv3 l) (good_inputs e l).
Proof.
  intros V PI. unfold inputs_check. rewrite (w_b _ _ V BPipeIn), (w_s _ _ V SRef), (w_h _ _ V). cbn [b2 bspec sspec]. rewrite PI. cbn [orb].
  assert (NN : is_nil (map mk (hyps_of l)) = is_nil (hyps_of l)) by (destruct (hyps_of l); reflexivity). rewrite NN.
  destruct (ref_of l) as [f|] eqn:RF; cbn [some andb negb].
  2: { split; [intros ((f & K & _) & _); congruence|]. split; [reflexivity|right; intros ((f & K & _) & _); congruence]. }
  destruct (is_nil (hyps_of l)) eqn:HS; cbn [negb].
  { assert (hyps_of l = []) as Z by (destruct (hyps_of l); [reflexivity|discriminate]). split; [intros (_ & K & _); congruence|]. split; [reflexivity|right; intros (_ & K & _); congruence]. }
  cbn [require rbind]. assert (HN : hyps_of l <> []) by (intros K; rewrite K in HS; discriminate).
  set (s2 := match s_ s SRefFmt with None => _ | Some _ => s end).
  assert (V2 : inv3 l s2).
  { unfold s2. rewrite (w_s _ _ V SRefFmt). cbn [sspec]. destruct (last_of _ l) as [w|] eqn:Q; split; try apply V; try (intros y _; apply V);
      unfold ref_format; rewrite ?Q; cbn [or_else]; [rewrite (w_s _ _ V SRefFmt); exact Q| |reflexivity].
    intros y N. cbn [s_ sets]. destruct (sv_dec y SRefFmt); [contradiction|apply V]. }
  clearbody s2. rewrite (x_r _ _ V2), (x_h _ _ V2), (x_s _ _ V2 SId) by discriminate. rewrite (x_b _ _ V2 BTime). cbn [sspec b2 bspec].
  apply (dec_iff _ _ (e_exists e f = true /\ (Forall (fun f => e_exists e f = true) (files l) /\ (among ["trn"; "ctm"; "tmk"; "stm"]%string (ref_format l) /\
    (Forall (among ["trn"; "ctm"; "tmk"; "txt"]%string) (formats l) /\ ((value l Id = None -> ~ In (B "trn") (ref_format l :: formats l)) /\
    ((on l TimeAlign = true -> Forall (eq (B "ctm")) (ref_format l :: formats l)) /\ True))))))).
  { unfold good_inputs. rewrite RF. split.
    - intros (A1 & A2 & A3 & A4 & A5 & A6 & _). split; [exists f; split; [reflexivity|exact A1]|]. repeat (split; [assumption|]). exact A6.
    - intros ((f' & [= <-] & A1) & A2 & A3 & A4 & A5 & A6 & A7). repeat (split; [assumption|]). exact I. }
  apply (dec_bind _ _ (fun _ => True)); [apply dec_require; reflexivity|]. intros [] _ _.
  apply (dec_bind _ _ (fun _ => True)); [apply dec_require, forallb_mk; intros h; reflexivity|]. intros [] _ _.
  apply (dec_bind _ _ (fun _ => True)); [apply dec_require, (one_of_iff ["trn"; "ctm"; "tmk"; "stm"]%string)|]. intros [] _ _.
  apply (dec_bind _ _ (fun _ => True)); [apply dec_require, forallb_mk; intros h; apply (one_of_iff ["trn"; "ctm"; "tmk"; "txt"]%string)|]. intros [] _ _.
  assert (EX : existsb (fun h => same (h_fmt h) (B "trn")) (map mk (hyps_of l)) = true <-> In (B "trn") (formats l)).
  { unfold formats. rewrite existsb_exists, in_map_iff. split.
    - intros (h & I1 & E). apply in_map_iff in I1. destruct I1 as (x & <- & I1). apply same_iff in E. exists x. split; [exact E|exact I1].
    - intros (x & E & I1). exists (mk x). split; [apply in_map; exact I1|]. apply same_iff. exact E. }
  apply (dec_bind _ _ (fun _ => True)).
  { apply dec_require. cbn [is]. rewrite orb_true_iff, negb_true_iff, orb_false_iff. destruct (value l Id) as [w|]; cbn [some]; [split; [discriminate|intros _; left; reflexivity]|].
    split.
    - intros [K|[K1 K2]] _ [J|J]; try discriminate; [apply same_iff in J; congruence|]. apply EX in J. congruence.
    - intros K. right. specialize (K eq_refl). split; [destruct (same (ref_format l) (B "trn")) eqn:Q; [|reflexivity]; apply same_iff in Q; destruct K; left; exact Q|].
      destruct (existsb _ _) eqn:Q; [|reflexivity]. destruct K. right. apply EX. reflexivity. }
  intros [] _ _.
  apply (dec_bind _ _ (fun _ => True)); [|intros [] _ _; apply dec_ok; [exact V2|exact I]].
  apply dec_require. cbn [is]. rewrite orb_true_iff, negb_true_iff, andb_true_iff, same_iff.
  rewrite (forallb_mk (fun h => same (h_fmt h) (B "ctm")) (eq (B "ctm")) (fun h => snd (fst h))) by (intros h; rewrite same_iff; split; intros K; symmetry; exact K).
  change (map (fun h => snd (fst h)) (hyps_of l)) with (formats l).
  destruct (on l TimeAlign); split.
  - intros [K|[K1 K2]] _; [discriminate|]. constructor; [symmetry; exact K1|exact K2].
  - intros K. right. specialize (K eq_refl). inversion K. split; [symmetry; assumption|assumption].
  - intros _ K. discriminate K.
  - intros _. left. reflexivity.
Qed.

(** ** The other checks *)
Lemma id_ok l s : inv3 l s -> dec (id_check s) (fun _ => True) (forall w, value l Id = Some w -> among ["swb"; "rm"; "wsj"; "spu_id"; "sp"]%string w).
Proof.
  intros V. unfold id_check. rewrite (x_s _ _ V) by discriminate. cbn [sspec]. destruct (value l Id) as [w|]; [|apply dec_ok; [exact I|discriminate]].
  apply dec_require. rewrite (one_of_iff ["swb"; "rm"; "wsj"; "spu_id"; "sp"]%string). split; [intros K w' [= <-]; exact K|intros K; apply K; reflexivity].
Qed.
Lemma reduce_ok l s : inv3 l s -> dec (reduce_check s) (fun _ => True) (reduce_of l <> (false, false) -> ref_format l = B "stm" /\ Forall (eq (B "ctm")) (formats l) /\ on l UseDiff = false).
Proof.
  intros V. unfold reduce_check. rewrite !(x_b _ _ V), (x_r _ _ V), (x_h _ _ V). cbn [b2 bspec]. destruct (reduce_of l) as [a b]. cbn [fst snd].
  destruct (a || b) eqn:Q.
  - assert (N : (a, b) <> (false, false)) by (intros [= -> ->]; discriminate).
    apply (dec_iff _ _ (ref_format l = B "stm" /\ (Forall (eq (B "ctm")) (formats l) /\ on l UseDiff = false))); [tauto|].
    apply (dec_bind _ _ (fun _ => True)); [apply dec_require, same_iff|]. intros [] _ _.
    apply (dec_bind _ _ (fun _ => True)); [apply dec_require, forallb_mk; intros h; rewrite same_iff; split; intros K; symmetry; exact K|]. intros [] _ _.
    apply dec_require, negb_true_iff.
  - apply orb_false_elim in Q. destruct Q as [-> ->]. apply dec_ok; [exact I|]. intros K. congruence.
Qed.
Lemma char_ok l s : inv3 l s -> hyps_of l <> [] ->
  dec (char_check s) (fun _ => True) (fst (fst (chars_of l)) = true -> on l UseDiff = false /\ ~ (ref_format l = B "stm" /\ nth_error (formats l) 0 = Some (B "txt"))).
Proof.
  intros V H. unfold char_check. rewrite !(x_b _ _ V), (x_r _ _ V), (x_h _ _ V). cbn [b2 bspec]. change (c1 l) with (fst (fst (chars_of l))). destruct (fst (fst (chars_of l))).
  2: { apply dec_ok; [exact I|discriminate]. }
  destruct (on l UseDiff).
  { split; [intros K; destruct (K eq_refl); discriminate|]. split; [reflexivity|right; intros K; destruct (K eq_refl); discriminate]. }
  unfold formats. destruct (hyps_of l) as [|h hs]; [congruence|]. cbn [map nth_error]. apply dec_require. rewrite negb_true_iff. change (h_fmt (mk h)) with (snd (fst h)). split.
  - intros K _. split; [reflexivity|]. intros [K1 [= K2]]. rewrite K1, K2 in K. discriminate.
  - intros K. destruct (same _ _ && same _ _) eqn:Q; [|reflexivity]. apply andb_true_iff in Q. destruct Q as [Q1 Q2]. apply same_iff in Q1. apply same_iff in Q2.
    destruct (K eq_refl) as [_ K2]. destruct K2. split; [exact Q1|]. rewrite Q2. reflexivity.
Qed.
Lemma weights_ok l s : (forall x, b_ s x = b2 l x) -> s_ s SWwl = value l Weights -> s_ s SLm = value l LanguageModel -> dec (weights_check s) (fun _ => True)
  ((value l Weights = None \/ value l LanguageModel = None) /\ (value l Weights = None /\ value l LanguageModel = None \/ ~ others l) /\
   (shown l RWws = true -> value l Weights <> None \/ value l LanguageModel <> None)).
Proof.
  intros Vb W1 W2. unfold weights_check. rewrite !Vb, W1, W2. cbn [b2 bspec]. change (c1 l) with (fst (fst (chars_of l))).
  assert (O : (on l TimeAlign || fst (fst (chars_of l)) || (odd_times l Algo1 || odd_times l Algo2) || on l UseDiff = true) <-> others l) by (unfold others; rewrite !orb_true_iff; tauto).
  destruct (_ || on l UseDiff); [assert (OT : others l) by (apply O; reflexivity)|assert (OT : ~ others l) by (intros K; apply O in K; discriminate)]; clear O;
    destruct (value l Weights) as [w|], (value l LanguageModel) as [m|], (shown l RWws); cbn [some andb negb require rbind];
    first [ apply dec_ok; [exact I|]; repeat split; try (left; reflexivity); try (right; reflexivity); try (left; split; reflexivity); try (right; exact OT); try discriminate; try (intros _; left; discriminate); try (intros _; right; discriminate)
    | split; [|split; [reflexivity|right]]; intros (K1 & K2 & K3); try (destruct K1; discriminate); try (destruct K2 as [[]|K2]; [discriminate|contradiction]); destruct (K3 eq_refl); congruence ].
Qed.
