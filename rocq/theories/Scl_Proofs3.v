(** Proofs about the command line of sclite: encodings, and the loop. *)
From Coq Require Import String.
From Coq Require Import List ZArith NArith Arith Bool Lia.
From Verif Require Store_Model Store_Proofs.
From Verif Require Import Base Sgml_Model Scl_Model Scl_Spec Scl_Proofs1 Scl_Proofs2.
Import ListNotations.
Local Open Scope list_scope.
Local Open Scope res_scope.

(** ** Encodings *)
Lemma lower_iff x y : lower x = lower y <-> (x = y \/ (65 <= x <= 90 /\ y = x + 32)%N \/ (65 <= y <= 90 /\ x = y + 32)%N).
Proof.
  unfold lower. destruct (N.leb_spec 65 x), (N.leb_spec x 90), (N.leb_spec 65 y), (N.leb_spec y 90); cbn [andb]; lia.
Qed.
Lemma same_letters_iff a b : same_letters a b <-> map lower a = map lower b.
Proof.
  unfold same_letters. split.
  - induction 1 as [|x y a b H _ IH]; [reflexivity|]. cbn [map]. rewrite IH. f_equal. apply lower_iff. exact H.
  - revert b. induction a as [|x a IH]; intros [|y b] H; try discriminate; constructor; injection H as H1 H2; [apply lower_iff; exact H1|apply IH; exact H2].
Qed.
Lemma icase_iff w n k : map lower n = B k -> (icase w n = true <-> map lower w = B k).
Proof. intros H. unfold icase. rewrite same_iff, H. reflexivity. Qed.
Lemma lower_dash w k : map lower w = B k -> dash (B k) = false -> dash w = false.
Proof. intros H D. destruct w as [|c r]; [reflexivity|]. cbn [dash]. destruct (N.eqb_spec c 45) as [->|]; [|reflexivity]. rewrite <- H in D. discriminate D. Qed.
Definition enc_table : list (string * string) := [("gb", "GB"); ("euc", "GB"); ("utf-8", "UTF-8"); ("ascii", "ASCII"); ("ext_ascii", "EXT_ASCII")]%string.
Lemma enc_ok n : named encodings n -> dash n = false /\ exists k v, In (k, v) enc_table /\ same_letters n (B k) /\ encoding n = Some (B v).
Proof.
  intros (k & I & H). apply same_letters_iff in H. change (map lower (B k)) with (map lower (B k)) in H.
  assert (L : map lower (B k) = B k) by (destruct I as [<-|[<-|[<-|[<-|[<-|[]]]]]]; reflexivity). rewrite L in H. split.
  - apply (lower_dash _ _ H). destruct I as [<-|[<-|[<-|[<-|[<-|[]]]]]]; reflexivity.
  - assert (E : encoding n = encoding (B k)) by (unfold encoding, icase; rewrite H, L; reflexivity). exists k.
    destruct I as [<-|[<-|[<-|[<-|[<-|[]]]]]]; [exists "GB"%string|exists "GB"%string|exists "UTF-8"%string|exists "ASCII"%string|exists "EXT_ASCII"%string];
      (split; [|split; [apply same_letters_iff; rewrite H; reflexivity|rewrite E; vm_compute; reflexivity]]); cbn; tauto.
Qed.
Lemma conv_ok n : named conversions n -> dash n = false /\ exists k, In k conversions /\ same_letters n (B k) /\ profile n = Some (B k).
Proof.
  intros (k & I & H). apply same_letters_iff in H. assert (L : map lower (B k) = B k) by (cbn [In conversions] in I; intuition (subst k; reflexivity)). rewrite L in H. split.
  - apply (lower_dash _ _ H). cbn [In conversions] in I; intuition (subst k; reflexivity).
  - exists k. split; [exact I|]. split; [apply same_letters_iff; rewrite H, L; reflexivity|].
    assert (E : forall l, find (icase n) l = find (icase (B k)) l) by (intros l; induction l as [|x l IH]; [reflexivity|]; cbn [find]; rewrite IH; unfold icase; rewrite H, L; reflexivity).
    unfold profile. rewrite E. cbn [In conversions] in I; intuition (subst k; reflexivity).
Qed.
Lemma inv_enc l s n c : inv l s -> named encodings n -> (forall w, c = Some w -> named conversions w) -> forall rest, stops rest ->
  exists s', enc_arg (n :: opt_word (fun w => [w]) c ++ rest) s = Ok (s', rest) /\ inv (l ++ [Encoding n c]) s'.
Proof.
  intros V Hn Hc rest R. destruct (enc_ok n Hn) as (D & k & v & _ & _ & E). unfold enc_arg. rewrite D, E. destruct c as [w|]; cbn [opt_word app].
  - destruct (conv_ok w (Hc w eq_refl)) as (D2 & k2 & _ & _ & E2). rewrite D2, E2. cbn [negb]. eexists. split; [reflexivity|]. go V; rewrite ?E, ?E2; reflexivity.
  - assert (Q : (match rest with p :: r2 => if negb (dash p) then match profile p with None => Exit | Some q => Ok (sets SProf q (sets SEnc (B v) s), r2) end else Ok (sets SEnc (B v) s, rest)
        | [] => Ok (sets SEnc (B v) s, rest) end) = Ok (sets SEnc (B v) s, rest)) by (destruct rest as [|p r2]; [reflexivity|]; cbn [stops] in R; rewrite R; reflexivity).
    eexists. split; [exact Q|]. go V; rewrite ?E; reflexivity.
Qed.

(** ** One option *)
Definition closed (o : option_) : Prop := match o with Flag _ | Set_ _ _ => True | _ => False end.
Lemma first_word o : exists a r, words o = a :: r /\ dash a = true.
Proof. destruct o as [| |f|s v| | | | | |]; try (eexists; eexists; split; reflexivity); [destruct f|destruct s]; eexists; eexists; split; reflexivity. Qed.
Lemma step_option e l s o rest : inv l s -> usable e o -> length (hyps_of (l ++ [o])) <= 40 -> stops rest \/ closed o ->
  exists a r s', words o = a :: r /\ dash a = true /\ step e a (r ++ rest) s = Ok (s', rest) /\ inv (l ++ [o]) s'.
Proof.
  intros V U L R. destruct o as [f fm|f fm|f|w v|w|w|w|w|n c|a x k]; cbn [usable] in U.
  - destruct R as [R|[]]. do 3 eexists. split; [reflexivity|]. split; [reflexivity|]. split; [|apply (inv_ref l s f fm V)].
    change (step e (B "-r")) with (@ref_arg). destruct U as [U1 U2]. unfold ref_arg. cbn [app]. rewrite (no_dash_false f U1). destruct fm as [w|]; cbn [opt_word app].
    + rewrite (no_dash_false w (U2 w eq_refl)). reflexivity.
    + destruct rest as [|w r]; [reflexivity|]. cbn [stops] in R. rewrite R. reflexivity.
  - destruct R as [R|[]]. do 3 eexists. split; [reflexivity|]. split; [reflexivity|]. split; [|apply (inv_hyp l s f fm V)].
    change (step e (B "-h")) with (@hyp_arg). destruct U as [U1 U2]. unfold hyp_arg. cbn [app]. rewrite (no_dash_false f U1).
    replace (40 <=? length (hyps s)) with false.
    2: { symmetry. apply Nat.leb_gt. rewrite hyps_snoc, app_length in L. rewrite (v_h _ _ V), map_length. destruct fm as [[w t]|]; cbn [hyp_of length] in L; lia. }
    destruct fm as [[w [t|]]|]; cbn [opt_word app fst snd].
    + destruct (U2 w _ eq_refl) as [U3 U4]. rewrite (no_dash_false w U3). cbn [negb]. rewrite (no_dash_false t (U4 t eq_refl)). reflexivity.
    + destruct (U2 w _ eq_refl) as [U3 U4]. rewrite (no_dash_false w U3). cbn [negb]. destruct rest as [|x r]; [reflexivity|]. cbn [stops] in R. rewrite R. reflexivity.
    + destruct rest as [|x r]; [reflexivity|]. cbn [stops] in R. rewrite R. cbn [negb]. rewrite R. reflexivity.
  - do 3 eexists. split; [reflexivity|]. split; [destruct f; reflexivity|]. split; [|apply (inv_flag l s f V)].
    destruct f; cbn [word_of_flag app]; try reflexivity. change (step e (B "-d") rest s) with (if e_diff e then Ok (setb BDiff true s, rest) else Exit). rewrite U. reflexivity.
  - do 3 eexists. split; [reflexivity|]. split; [destruct w; reflexivity|]. split; [|apply (inv_set l s w v V)].
    destruct w; cbn [word_of_setting app]; try reflexivity. change (step e (B "-L") (v :: rest) s) with (if e_slm e then one_arg (sets SLm) (v :: rest) s else Exit). rewrite U. reflexivity.
  - destruct R as [R|[]]. destruct U as [U1 U2]. do 3 eexists. split; [reflexivity|]. split; [reflexivity|]. split; [|apply (inv_reports l s w V)].
    change (step e (B "-o") (w ++ rest) s) with (match w ++ rest with [] => Exit | _ => let* (s, r) := word_loop (fun w s => Ok (report_word w s)) (w ++ rest) s in Ok (setb BOutSet true s, r) end).
    rewrite (word_loop_fold report_word) by (assumption || reflexivity). destruct w; [congruence|reflexivity].
  - destruct R as [R|[]]. destruct U as [U1 U2]. do 3 eexists. split; [reflexivity|]. split; [reflexivity|]. split; [|apply (inv_confs l s w V)].
    change (step e (B "-C") (w ++ rest) s) with (match w ++ rest with [] => Exit | _ => let* (s, r) := word_loop (fun w s => Ok (conf_word w s)) (w ++ rest) s in Ok (setb BOutSet true s, r) end).
    rewrite (word_loop_fold conf_word) by (assumption || reflexivity). destruct w; [congruence|reflexivity].
  - destruct R as [R|[]]. destruct (inv_chars l s w rest V R) as (s' & E & V'). exists (B "-c"), (map split_word w), s'. repeat (split; [first [reflexivity|exact E]|]). exact V'.
  - destruct R as [R|[]]. destruct (inv_reduce l s w rest V R) as (s' & E & V'). exists (B "-m"), (map side_word w), s'. repeat (split; [first [reflexivity|exact E]|]). exact V'.
  - destruct R as [R|[]]. destruct U as [U1 U2]. destruct (inv_enc l s n c V U1 U2 rest R) as (s' & E & V'). exists (B "-e"), (n :: opt_word (fun w => [w]) c), s'.
    repeat (split; [first [reflexivity|exact E]|]). exact V'.
  - destruct R as [R|[]]. destruct U as [U1 U2]. do 3 eexists. split; [reflexivity|]. split; [reflexivity|]. split; [|apply (inv_segment l s a x k V)].
    change (step e (B "-S")) with (segment_arg e). unfold segment_arg. destruct a; cbn [app].
    + change (dash (B "algo1")) with false. change (same (B "algo1") (B "algo1")) with true. cbv iota. cbn [rbind]. rewrite (no_dash_false x U1), U2. cbn [negb].
      destruct k; cbn [app]; [reflexivity|]. destruct rest as [|y r]; [reflexivity|]. cbn [stops] in R. rewrite R. reflexivity.
    + change (dash (B "algo2")) with false. change (same (B "algo2") (B "algo1")) with false. change (same (B "algo2") (B "algo2")) with true. cbv iota. cbn [rbind]. rewrite (no_dash_false x U1), U2. cbn [negb].
      destruct k; cbn [app]; [reflexivity|]. destruct rest as [|y r]; [reflexivity|]. cbn [stops] in R. rewrite R. reflexivity.
Qed.
Lemma hyps_app l k : hyps_of (l ++ k) = hyps_of l ++ hyps_of k.
Proof. unfold hyps_of. apply flat_map_app. Qed.
Lemma loop_options e l : forall l0 s fuel rest, inv l0 s -> Forall (usable e) l -> length (hyps_of (l0 ++ l)) <= 40 ->
  stops rest \/ l = [] \/ (exists l1 o, l = l1 ++ [o] /\ closed o) -> length (flat_map words l ++ rest) <= fuel ->
  exists s' fuel', loop fuel e (flat_map words l ++ rest) s = loop fuel' e rest s' /\ inv (l0 ++ l) s' /\ length rest <= fuel'.
Proof.
  induction l as [|o l IH]; intros l0 s fuel rest V U L R F.
  - exists s, fuel. rewrite app_nil_r. split; [reflexivity|]. split; [exact V|exact F].
  - inversion U as [|? ? U1 U2]; subst. assert (L1 : length (hyps_of (l0 ++ [o])) <= 40).
    { replace (l0 ++ o :: l) with ((l0 ++ [o]) ++ l) in L by (rewrite <- app_assoc; reflexivity). rewrite hyps_app, app_length in L. lia. }
    assert (R1 : stops (flat_map words l ++ rest) \/ closed o).
    { destruct l as [|o2 l].
      - destruct R as [R|[K|(l1 & o1 & E & C)]]; [left; exact R|discriminate|]. destruct l1 as [|z [|]]; inversion E; subst. right. exact C.
      - left. cbn [flat_map]. destruct (first_word o2) as (a & r & -> & D). exact D. }
    destruct (step_option e l0 s o (flat_map words l ++ rest) V U1 L1 R1) as (a & r & s1 & E1 & E2 & E3 & V1).
    cbn [flat_map] in *. rewrite E1 in *. rewrite <- app_assoc in *. cbn [app] in *. cbn [length] in F. rewrite app_length in F.
    destruct fuel as [|fuel]; [lia|]. cbn [loop]. rewrite E2, E3. cbn [rbind].
    destruct (IH (l0 ++ [o]) s1 fuel rest) as (s' & f' & G1 & G2 & G3); [exact V1|exact U2|rewrite <- app_assoc; exact L| |lia|].
    + destruct R as [R|[K|(l1 & o1 & E & C)]]; [left; exact R|discriminate|]. right. destruct l1 as [|z l1]; inversion E; subst; [left; reflexivity|right; exists l1, o1; split; [reflexivity|exact C]].
    + exists s', f'. rewrite <- app_assoc in G2. split; [exact G1|]. split; [exact G2|exact G3].
Qed.
