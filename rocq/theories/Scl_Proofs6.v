(** Proofs about the command line of sclite: the program. *)
From Coq Require Import String.
From Coq Require Import List ZArith NArith Arith Bool Lia.
From Verif Require Store_Model Store_Proofs.
From Verif Require Import Base Sgml_Model Scl_Model Scl_Spec Scl_Proofs1 Scl_Proofs2 Scl_Proofs3 Scl_Proofs4 Scl_Proofs5.
Import ListNotations.
Local Open Scope list_scope.
Local Open Scope res_scope.

Lemma encoding_ok e l : Forall (usable e) l -> encoding_is l (sspec l SEnc) /\ conversion_is l (sspec l SProf).
Proof.
  induction l as [|o l IH] using rev_ind; [split; reflexivity|]. intros U. apply Forall_app in U. destruct U as [U1 U2]. inversion U2 as [|? ? U3 _]; subst.
  destruct (IH U1) as [I1 I2]. unfold encoding_is, conversion_is in *. cbn [sspec] in *. rewrite !last_snoc.
  destruct o as [| | | | | | | |n c|]; try (split; assumption). destruct U3 as [U3 U4]. destruct (enc_ok n U3) as (_ & k & v & K1 & K2 & K3). rewrite K3. split; [exists k, v; repeat split; assumption|].
  destruct c as [w|]; [|exact I2]. destruct (conv_ok w (U4 w eq_refl)) as (_ & k' & J1 & J2 & J3). rewrite J3. exists k'. repeat split; assumption.
Qed.
Lemma words_nonempty l : l <> [] -> exists a r, flat_map words l = a :: r.
Proof. destruct l as [|o l]; [congruence|]. intros _. cbn [flat_map]. destruct (first_word o) as (a & r & -> & _). exists a. eexists. reflexivity. Qed.
(** the loop over all options *)
Lemma loop_all e l tail : Forall (usable e) l -> length (hyps_of l) <= 40 -> ignored l tail -> exists s, loop (length (flat_map words l ++ tail)) e (flat_map words l ++ tail) start = Ok s /\ inv l s.
Proof.
  intros U L G. destruct (loop_options e l [] start (length (flat_map words l ++ tail)) tail inv_start U L) as (s & f & E & V & _); [|lia|].
  - destruct G as [->|((k & o & -> & C) & _)]; [left; exact I|]. right; right. exists k, o. split; [reflexivity|exact C].
  - exists s. rewrite E. split; [|exact V]. destruct G as [->|(_ & w & r & -> & D)]; [destruct f; reflexivity|]. apply no_dash_false in D. destruct f; cbn [loop]; rewrite D; reflexivity.
Qed.
Definition rest_of_args (e : env) (s : st) : res st :=
  let* s := outputs_check s in let* s := inputs_check e s in let* _ := id_check s in let* _ := reduce_check s in let* _ := char_check s in let* _ := weights_check s in Ok s.
Lemma proc_all e l tail : l <> [] -> Forall (usable e) l -> length (hyps_of l) <= 40 -> ignored l tail -> exists s, inv l s /\ proc_args e (flat_map words l ++ tail) = rest_of_args e s.
Proof.
  intros N U L G. destruct (loop_all e l tail U L G) as (s & E & V). exists s. split; [exact V|]. unfold proc_args. rewrite E. destruct (words_nonempty l N) as (a & r & ->). reflexivity.
Qed.
Lemma proc_ok e l tail : l <> [] -> Forall (usable e) l -> length (hyps_of l) <= 40 -> ignored l tail -> on l PipeIn = false -> dec (proc_args e (flat_map words l ++ tail)) (inv3 l) (good_inputs e l /\ compatible l).
Proof.
  intros N U L G0 P. destruct (proc_all e l tail N U L G0) as (s & V & ->). unfold rest_of_args, compatible.
  apply (dec_iff _ _ ((on l PipeOut = true -> asked (rnames RStdout) (report_words l) = false) /\ (good_inputs e l /\ ((forall w, value l Id = Some w -> among ["swb"; "rm"; "wsj"; "spu_id"; "sp"]%string w) /\
    ((reduce_of l <> (false, false) -> ref_format l = B "stm" /\ Forall (eq (B "ctm")) (formats l) /\ on l UseDiff = false) /\
    ((fst (fst (chars_of l)) = true -> on l UseDiff = false /\ ~ (ref_format l = B "stm" /\ nth_error (formats l) 0 = Some (B "txt"))) /\
    (((value l Weights = None \/ value l LanguageModel = None) /\ (value l Weights = None /\ value l LanguageModel = None \/ ~ others l) /\
   (shown l RWws = true -> value l Weights <> None \/ value l LanguageModel <> None)) /\ True))))))); [tauto|].
  apply (dec_bind _ _ (inv2 l)); [apply outputs_ok; exact V|]. clear s V. intros s _ V.
  apply (dec_bind _ _ (inv3 l)); [apply inputs_ok; assumption|]. clear s V. intros s G V.
  apply (dec_bind _ _ (fun _ => True)); [apply id_ok; exact V|]. intros [] _ _.
  apply (dec_bind _ _ (fun _ => True)); [apply reduce_ok; exact V|]. intros [] _ _.
  apply (dec_bind _ _ (fun _ => True)); [apply char_ok; [exact V|apply G]|]. intros [] _ _.
  apply (dec_bind _ _ (fun _ => True)); [apply weights_ok; [apply V|apply (x_s _ _ V); discriminate|apply (x_s _ _ V); discriminate]|]. intros [] _ _.
  apply dec_ok; [exact V|exact I].
Qed.
Lemma weights_dec e l (w : option (list N)) : w = value l Weights -> dec (match w with Some w => require (e_weights e w) | None => Ok tt end) (fun _ => True) (weights_read e l).
Proof.
  intros ->. unfold weights_read. destruct (value l Weights) as [w|]; [|apply dec_ok; [exact I|discriminate]]. apply dec_require. split; [intros K w' [= <-]; exact K|intros K; apply K; reflexivity].
Qed.
Lemma fin3 l s : inv3 l s -> fin l s.
Proof. intros V. split; apply V. Qed.
Lemma main_ok e l tail : l <> [] -> Forall (usable e) l -> length (hyps_of l) <= 40 -> ignored l tail -> on l PipeIn = false ->
  dec (main e (flat_map words l ++ tail)) (fun o => exists r ev, ref_of l = Some r /\ scoring e l r 0 (hyps_of l) ev /\ does l o (ev ++ piped_out l FromHyp (length (hyps_of l)))) (ready e l).
Proof.
  intros N U L G0 P. unfold main.
  apply (dec_iff _ _ ((good_inputs e l /\ compatible l) /\ (True /\ (weights_read e l /\ ((Forall (fun h => exists m, scored e (on l UseDiff) (ref_format l) (snd (fst h)) m) (hyps_of l) /\
    forall j, 0 <= j < 0 + length (hyps_of l) -> e_aligns e j = true) /\ True))))).
  { unfold ready, formats. rewrite Forall_map. split.
    - intros ((A1 & A2) & _ & A3 & (A4 & A5) & _). repeat (split; [assumption|]). intros i K. apply A5. lia.
    - intros (A1 & A2 & A3 & A4 & A5). repeat (split; [split; assumption || exact I|] || (split; [assumption || exact I|])). split; [|exact I]. split; [exact A4|]. intros j K. apply A5. lia. }
  apply (dec_bind _ _ (inv3 l)); [apply proc_ok; assumption|]. intros s (((f & RF & _) & _) & _) V.
  rewrite (x_b _ _ V BPipeIn). cbn [b2 bspec]. rewrite P.
  apply (dec_bind _ _ (fun t => t = [])); [apply dec_ok; [reflexivity|exact I]|]. intros t _ ->.
  apply (dec_bind _ _ (fun _ => True)); [apply weights_dec; apply (x_s _ _ V); discriminate|]. intros [] _ _.
  cbn [length]. rewrite Nat.add_0_r. rewrite (x_h _ _ V), map_length.
  apply dec_bind with (R := fun x => scoring e l f 0 (hyps_of l) (fst x) /\ forall j, j < 0 + length (hyps_of l) -> snd x j = Some (FromHyp j)).
  { apply (rounds_hyps e l s f (fin3 _ _ V)) with (pre := []); [rewrite (x_s _ _ V) by discriminate; exact RF|apply (x_r _ _ V)|reflexivity|reflexivity|intros j K; lia]. }
  intros [ev scor] _ [K1 K2]. cbn [fst snd] in K1, K2. rewrite (dumps_ok scor FromHyp) by (intros j K; apply K2; lia). cbn [rbind].
  apply dec_ok; [|exact I]. exists f, ev. split; [exact RF|]. split; [exact K1|]. destruct (encoding_ok e l U) as [E1 E2].
  split; [apply (x_f _ _ V)|]. cbn [o_encoding o_conversion o_events]. rewrite !(x_s _ _ V) by discriminate. split; [exact E1|]. split; [exact E2|].
  unfold piped_out. rewrite (x_b _ _ V BPipeOut). reflexivity.
Qed.

(** ** The pipe *)
Lemma inputs_piped e l s : inv2 l s -> on l PipeIn = true -> ref_of l = None -> hyps_of l = [] -> inputs_check e s = Ok s.
Proof.
  intros V P R H. unfold inputs_check. rewrite (w_b _ _ V BPipeIn), (w_s _ _ V SRef), (w_h _ _ V). cbn [b2 bspec sspec]. rewrite P, R, H. reflexivity.
Qed.
Lemma main_piped e l tail titles : l <> [] -> Forall (usable e) l -> ignored l tail -> on l PipeIn = true -> ref_of l = None -> hyps_of l = [] -> chars_of l = (false, false, false) -> reduce_of l = (false, false) ->
  e_piped e = Some titles ->
  dec (main e (flat_map words l ++ tail)) (fun o => exists ev, reporting l 0 titles ev /\ does l o (ev ++ piped_out l FromPipe (length titles))) (compatible l /\ weights_read e l).
Proof.
  intros N U G0 P R H C RD T. unfold main. destruct (proc_all e l tail N U) as (s & V & ->); [rewrite H; cbn; lia|exact G0|]. unfold rest_of_args, compatible.
  apply (dec_iff _ _ (((on l PipeOut = true -> asked (rnames RStdout) (report_words l) = false) /\ (True /\ ((forall w, value l Id = Some w -> among ["swb"; "rm"; "wsj"; "spu_id"; "sp"]%string w) /\
    (True /\ (True /\ (((value l Weights = None \/ value l LanguageModel = None) /\ (value l Weights = None /\ value l LanguageModel = None \/ ~ others l) /\
   (shown l RWws = true -> value l Weights <> None \/ value l LanguageModel <> None)) /\ True)))))) /\ (True /\ (weights_read e l /\ True)))).
  { rewrite C, RD. cbn [fst]. intuition congruence. }
  apply (dec_bind _ _ (inv2 l)).
  - apply (dec_bind _ _ (inv2 l)); [apply outputs_ok; exact V|]. clear s V. intros s _ V. rewrite (inputs_piped e l s V P R H).
    apply (dec_bind _ _ (fun s' => s' = s)); [apply dec_ok; [reflexivity|exact I]|]. intros s' _ ->.
    apply (dec_bind _ _ (fun _ => True)).
    { unfold id_check. rewrite (w_s _ _ V). cbn [sspec]. destruct (value l Id) as [w|]; [|apply dec_ok; [exact I|discriminate]].
      apply dec_require. rewrite (one_of_iff ["swb"; "rm"; "wsj"; "spu_id"; "sp"]%string). split; [intros K w' [= <-]; exact K|intros K; apply K; reflexivity]. }
    intros [] _ _. apply (dec_bind _ _ (fun _ => True)); [unfold reduce_check; rewrite !(w_b _ _ V); cbn [b2 bspec]; rewrite RD; apply dec_ok; exact I|].
    intros [] _ _. apply (dec_bind _ _ (fun _ => True)); [unfold char_check; rewrite !(w_b _ _ V); cbn [b2 bspec]; unfold c1; rewrite C; apply dec_ok; exact I|].
    intros [] _ _. apply (dec_bind _ _ (fun _ => True)); [apply weights_ok; [apply V|apply (w_s _ _ V SWwl)|apply (w_s _ _ V SLm)]|]. intros [] _ _.
    apply dec_ok; [exact V|exact I].
  - clear s V. intros s _ V. rewrite (w_b _ _ V BPipeIn). cbn [b2 bspec]. rewrite P, T.
    apply (dec_bind _ _ (fun t => t = titles)); [apply dec_ok; [reflexivity|exact I]|]. intros t _ ->.
    apply (dec_bind _ _ (fun _ => True)); [apply weights_dec; apply (w_s _ _ V SWwl)|]. intros [] _ _.
    rewrite (w_h _ _ V), H. cbn [map length Nat.add].
    assert (F : fin l s) by (split; try apply V; intros y _; apply V).
    destruct (rounds_piped e l s titles F H titles [] 0 eq_refl eq_refl (fun i => if (i <? length titles)%nat then Some (FromPipe i) else None)) as (ev & E & RP).
    { intros j K. apply Nat.ltb_lt in K. rewrite K. reflexivity. }
    rewrite E. cbn [rbind]. rewrite (dumps_ok _ FromPipe) by (intros j K; destruct (Nat.ltb_spec j (length titles)); [reflexivity|lia]). cbn [rbind].
    apply dec_ok; [|exact I]. exists ev. split; [exact RP|]. destruct (encoding_ok e l U) as [E1 E2].
    split; [apply (w_f _ _ V)|]. cbn [o_encoding o_conversion o_events]. rewrite !(w_s _ _ V). split; [exact E1|]. split; [exact E2|].
    unfold piped_out. rewrite (w_b _ _ V BPipeOut). reflexivity.
Qed.

(** ** Both *)
Lemma rounds_slots e s titles n : forall i scor ev scor', rounds e s titles n i scor = Ok (ev, scor') -> forall j, length (hyps s) <= j -> scor' j = scor j.
Proof.
  induction n as [|n IH]; intros i scor ev scor' E j J; cbn [rounds] in E; [congruence|].
  destruct (nth_error titles i) as [t|].
  - cbn [rbind] in E. destruct (reports _ _ _ _) as [a| | |]; try discriminate. destruct (analyses _ _ _ _) as [b| | |]; try discriminate. cbn [rbind] in E.
    destruct (rounds e s titles n (S i) scor) as [[r sc]| | |] eqn:Q; try discriminate. cbn [rbind] in E. injection E as _ <-. apply (IH _ _ _ _ Q j J).
  - destruct (nth_error (hyps s) (i - length titles)) as [h|] eqn:Q; [|discriminate]. destruct (align_call e s h) as [c| | |]; try discriminate. cbn [rbind] in E.
    destruct (e_aligns e (i - length titles)); [|discriminate]. cbn [rbind] in E.
    destruct (reports _ _ _ _) as [a| | |]; try discriminate. destruct (analyses _ _ _ _) as [b| | |]; try discriminate. cbn [rbind] in E.
    destruct (rounds e s titles n (S i) _) as [[r sc]| | |] eqn:Q2; try discriminate. cbn [rbind] in E. injection E as _ <-. rewrite (IH _ _ _ _ Q2 j J).
    destruct (Nat.eqb_spec j (i - length titles)) as [K|K]; [|reflexivity]. assert (i - length titles < length (hyps s)) by (apply nth_error_Some; congruence). lia.
Qed.
Lemma dumps_some scor n : forall i d, dumps scor n i = Ok d -> forall j, i <= j < i + n -> scor j <> None.
Proof.
  induction n as [|n IH]; intros i d E j K; [lia|]. cbn [dumps] in E. destruct (scor i) as [x|] eqn:Q; [|discriminate]. cbn [use rbind] in E.
  destruct (dumps scor n (S i)) as [r| | |] eqn:Q2; try discriminate. destruct (Nat.eq_dec j i) as [->|N]; [congruence|]. apply (IH _ _ Q2). lia.
Qed.
Lemma inputs_keep e s s' : inputs_check e s = Ok s' -> hyps s' = hyps s /\ b_ s' = b_ s.
Proof.
  unfold inputs_check. intros E. repeat match type of E with context [require ?b] => destruct b; cbn [require rbind] in E; [|discriminate] end.
  destruct (s_ s SRef); [|injection E as <-; split; reflexivity]. destruct (is_nil (hyps s)); [injection E as <-; split; reflexivity|].
  repeat match type of E with context [require ?b] => destruct b; cbn [require rbind] in E; [|discriminate] end. injection E as <-. destruct (s_ s SRefFmt); split; reflexivity.
Qed.
Lemma main_mixed e l tail titles : l <> [] -> Forall (usable e) l -> length (hyps_of l) <= 40 -> ignored l tail -> on l PipeIn = true -> hyps_of l <> [] -> e_piped e = Some titles -> titles <> [] ->
  forall o, main e (flat_map words l ++ tail) <> Ok o.
Proof.
  intros N U L G0 P H T TN o E. unfold main in E. destruct (proc_all e l tail N U L G0) as (s & V & Q). rewrite Q in E. clear Q. unfold rest_of_args in E.
  destruct (outputs_ok l s V) as (O1 & O2 & [O3|O3]); [|rewrite (O2 O3) in E; discriminate]. destruct (O1 O3) as (s1 & Q1 & V1). rewrite Q1 in E. cbn [rbind] in E.
  destruct (inputs_check e s1) as [s2| | |] eqn:Q2; try discriminate. cbn [rbind] in E. destruct (inputs_keep _ _ _ Q2) as [K1 K2].
  destruct (id_check s2) as [[]| | |]; try discriminate. destruct (reduce_check s2) as [[]| | |]; try discriminate. destruct (char_check s2) as [[]| | |]; try discriminate.
  destruct (weights_check s2) as [[]| | |]; try discriminate. cbn [rbind] in E. rewrite K2, (w_b _ _ V1 BPipeIn) in E. cbn [b2 bspec] in E. rewrite P, T in E. cbn [rbind] in E.
  destruct (match s_ s2 SWwl with Some w => require (e_weights e w) | None => Ok tt end) as [u| | |]; try discriminate. cbn [rbind] in E.
  destruct (rounds _ _ _ _ _ _) as [[ev scor]| | |] eqn:Q3; try discriminate. cbn [rbind] in E.
  destruct (dumps scor _ 0) as [d| | |] eqn:Q4; try discriminate. assert (KH : length (hyps s2) = length (hyps_of l)) by (rewrite K1, (w_h _ _ V1), map_length; reflexivity). rewrite KH in Q3, Q4.
  assert (LH : 0 < length (hyps_of l)) by (destruct (hyps_of l); [congruence|cbn; lia]). assert (LT : 0 < length titles) by (destruct titles; [congruence|cbn; lia]).
  apply (dumps_some _ _ _ _ Q4 (length (hyps_of l) + length titles - 1)); [lia|].
  rewrite (rounds_slots _ _ _ _ _ _ _ _ Q3) by (rewrite KH; lia).
  destruct (Nat.ltb_spec (length (hyps_of l) + length titles - 1) (length titles)); [lia|reflexivity].
Qed.

(** ** Words that are no options *)
Lemma main_loop e args : args <> [] -> main e args = (let* s := loop (length args) e args start in let* s := rest_of_args e s in
  let* titles := if b_ s BPipeIn then match e_piped e with Some l => Ok l | None => Exit end else Ok [] in
  let* _ := match s_ s SWwl with Some w => require (e_weights e w) | None => Ok tt end in
  let n := (length (hyps s) + length titles)%nat in
  let* (ev, scor) := rounds e s titles n 0 (fun i => if (i <? length titles)%nat then Some (FromPipe i) else None) in
  let* d := dumps scor n 0 in
  Ok {| o_level := feedback s; o_encoding := s_ s SEnc; o_conversion := s_ s SProf; o_events := ev ++ if b_ s BPipeOut then d else [] |}).
Proof. intros H. unfold main, proc_args. destruct args as [|a r]; [congruence|]. destruct (loop _ _ _ _) as [s| | |]; reflexivity. Qed.
Lemma loop_exit e l w rest : Forall (usable e) l -> length (hyps_of l) <= 40 -> dash w = true -> (forall s, step e w rest s = Exit) -> main e (flat_map words l ++ w :: rest) = Exit.
Proof.
  intros U L D S. rewrite main_loop by (destruct (flat_map words l); discriminate).
  destruct (loop_options e l [] start (length (flat_map words l ++ w :: rest)) (w :: rest) inv_start U L) as (s & f & E & V & F); [left; exact D|lia|].
  rewrite E. cbn [length] in F. destruct f as [|f]; [lia|]. cbn [loop]. rewrite D, S. reflexivity.
Qed.
Lemma classify_unknown w : ~ In w (map B option_words) -> classify w = KUnknown.
Proof.
  intros H. unfold classify.
  repeat match goal with |- context [same w ?x] => destruct (same w x) eqn:E; [apply same_iff in E; exfalso; apply H; rewrite E; cbn [map option_words In]; tauto|clear E] end. reflexivity.
Qed.
