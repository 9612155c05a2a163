(** Upper and lower case, and comparison without regard to case. *)
From Coq Require Import List Arith ZArith NArith Bool Lia.
From Verif Require Import Base Text_Model Text_Spec Text_Proofs1 Text_Thm Case_Model Case_Spec Case_Proofs.
Import ListNotations.
Local Open Scope N_scope.

(** ** C79 *)
Theorem C79_conversion : forall e p junk low static m cs, text_in e m cs -> enough static cs cs ->
  exists out ds, to_master e p junk low static m = Ok out /\ text_in e out ds /\ Forall2 (case_of e p low) cs ds.
Proof.
  intros e p junk low static m cs T EN. destruct (to_master_ok e p junk low static m cs cs T EN (incl_refl _)) as (out & ds & A & B & C & _).
  eauto.
Qed.
Print Assumptions C79_conversion.

(** the characters of the result are determined *)
Theorem C79_case_is_a_function : forall e p low c d d', case_of e p low c d -> case_of e p low c d' -> d = d'.
Proof. exact case_of_fun. Qed.
Print Assumptions C79_case_is_a_function.

Lemma enough_room out cs all : room (length out) all -> enough (Some out) cs all.
Proof. intros [H|H]; [left; exact H|right; exact H]. Qed.

Theorem C79_history : forall e p junk static qs css,
  Forall2 (fun q cs => text_in e (snd q) cs) qs css -> enough static (hd [] css) (concat css) ->
  exists outs, calls e p junk static qs = Ok outs
    /\ Forall2 (fun q out => exists cs ds, text_in e (snd q) cs /\ text_in e out ds /\ Forall2 (case_of e p (fst q)) cs ds) qs outs.
Proof.
  intros e p junk static qs css F.
  assert (G : forall all, (forall cs, In cs css -> incl cs all) -> enough static (hd [] css) all ->
    exists outs, calls e p junk static qs = Ok outs
    /\ Forall2 (fun q out => exists cs ds, text_in e (snd q) cs /\ text_in e out ds /\ Forall2 (case_of e p (fst q)) cs ds) qs outs).
  { revert static. induction F as [|[low m] cs qs css T F IH]; intros static all IN EN.
    - exists []. split; [reflexivity|constructor].
    - cbn [snd hd] in *. destruct (to_master_ok e p junk low static m cs all T EN) as (out & ds & TM & F2 & TI & RM & _).
      { apply IN. left. reflexivity. }
      destruct (IH (Some out) all) as (outs & C & FO).
      { intros x I. apply IN. right. exact I. }
      { now apply enough_room. }
      exists (out :: outs). cbn [calls]. rewrite TM, C. split; [reflexivity|]. constructor; [|exact FO].
      exists cs, ds. auto. }
  apply G. intros cs I x J. apply in_concat. eauto.
Qed.
Print Assumptions C79_history.

Theorem C79_idempotent : forall e p junk low static m cs out b, text_in e m cs -> enough static cs cs ->
  to_master e p junk low static m = Ok out -> (8 <= length b)%nat ->
  exists out' ds, to_master e p junk low (Some b) out = Ok out' /\ text_in e out ds /\ text_in e out' ds.
Proof.
  intros e p junk low static m cs out b T EN TM LB.
  destruct (to_master_ok e p junk low static m cs cs T EN (incl_refl _)) as (o & ds & TM' & F2 & TI & _).
  rewrite TM in TM'. injection TM' as <-.
  destruct (to_master_ok e p junk low (Some b) out ds ds TI ltac:(left; exact LB) (incl_refl _)) as (o' & ds' & TM'' & F2' & TI' & _).
  assert (ds' = ds) as ->.
  { eapply forall2_fun; [exact F2'|]. clear -F2. induction F2; constructor; auto. eapply case_of_idem; eauto. }
  eauto.
Qed.
Print Assumptions C79_idempotent.

(** lower case of the upper case is lower case, and the other way round *)
Theorem C79_cases_agree : forall e p junk low static m cs u l l' b1 b2, text_in e m cs -> enough static cs cs ->
  (8 <= length b1)%nat -> (8 <= length b2)%nat ->
  to_master e p junk (negb low) static m = Ok u -> to_master e p junk low (Some b1) u = Ok l ->
  to_master e p junk low (Some b2) m = Ok l' -> exists ds, text_in e l ds /\ text_in e l' ds.
Proof.
  intros e p junk low static m cs u l l' b1 b2 T EN L1 L2 TU TL TL'.
  destruct (to_master_ok e p junk (negb low) static m cs cs T EN (incl_refl _)) as (? & us & X & F1 & TI1 & _).
  rewrite TU in X. injection X as <-.
  destruct (to_master_ok e p junk low (Some b1) u us us TI1 ltac:(left; exact L1) (incl_refl _)) as (? & ls & X & F2 & TI2 & _).
  rewrite TL in X. injection X as <-.
  destruct (to_master_ok e p junk low (Some b2) m cs cs T ltac:(left; exact L2) (incl_refl _)) as (? & ls' & X & F3 & TI3 & _).
  rewrite TL' in X. injection X as <-.
  exists ls. split; [exact TI2|]. replace ls with ls'; [exact TI3|]. eapply forall2_fun; [exact F3|].
  clear -F1 F2. revert ls F2. induction F1; intros ls F2; inversion F2; subst; constructor; auto. eapply case_of_cross; eauto.
Qed.
Print Assumptions C79_cases_agree.

(** comparison: zero exactly when the lower-case forms are the same *)
Theorem C79_compare : forall e p junk static m1 m2 cs1 cs2, text_in e m1 cs1 -> text_in e m2 cs2 ->
  enough static cs1 (cs1 ++ cs2) ->
  exists z s, strcasecmp e p junk static m1 m2 = Ok (z, s)
    /\ (z = 0%Z <-> exists ds, Forall2 (case_of e p true) cs1 ds /\ Forall2 (case_of e p true) cs2 ds)
    /\ (match static with Some b => (length b <= length s)%nat | None => True end).
Proof.
  intros e p junk static m1 m2 cs1 cs2 T1 T2 EN. unfold strcasecmp, casecmp.
  destruct (case_change_ok e p junk true static (repeat junk 100) m1 cs1 (cs1 ++ cs2) T1 EN (incl_appl _ (incl_refl _)))
    as (q1 & s1 & d1 & -> & F1 & D1 & S1 & R1 & L1). cbn [rbind].
  destruct (case_change_ok e p junk true (Some s1) (repeat junk 100) m2 cs2 (cs1 ++ cs2) T2 (enough_room _ _ _ R1) (incl_appr _ (incl_refl _)))
    as (q2 & s2 & d2 & -> & F2 & D2 & S2 & R2 & L2). cbn [rbind].
  destruct D1 as [H1 V1], D2 as [H2 V2].
  assert (C1 : chars_of e (concat d1) d1) by (split; [reflexivity|now apply valid_chars]).
  assert (C2 : chars_of e (concat d2) d2) by (split; [reflexivity|now apply valid_chars]).
  rewrite (strccmp_lex e q1 q2 (concat d1) (concat d2) d1 d2 (-1)) by (assumption || lia). rewrite Z.eqb_refl. cbn [rbind].
  destruct good_chars as (_ & _ & G3 & _).
  exists (lex ccmp d1 d2), s2. split; [reflexivity|]. split; [|destruct static; [lia|exact I]].
  rewrite (G3 d1 d2 I I). split.
  - intros <-. eauto.
  - intros (ds & G1 & G2). rewrite (forall2_fun _ _ _ _ _ F1 _ G1), (forall2_fun _ _ _ _ _ F2 _ G2). reflexivity.
Qed.
Print Assumptions C79_compare.

Lemma compare_value e p junk b m1 m2 cs1 cs2 : text_in e m1 cs1 -> text_in e m2 cs2 -> (8 <= length b)%nat ->
  exists s d1 d2, strcasecmp e p junk (Some b) m1 m2 = Ok (lex ccmp d1 d2, s)
    /\ Forall2 (case_of e p true) cs1 d1 /\ Forall2 (case_of e p true) cs2 d2.
Proof.
  intros T1 T2 LB. unfold strcasecmp, casecmp.
  destruct (case_change_ok e p junk true (Some b) (repeat junk 100) m1 cs1 (cs1 ++ cs2) T1 ltac:(left; exact LB) (incl_appl _ (incl_refl _)))
    as (q1 & s1 & d1 & -> & F1 & D1 & S1 & R1 & L1). cbn [rbind].
  destruct (case_change_ok e p junk true (Some s1) (repeat junk 100) m2 cs2 (cs1 ++ cs2) T2 (enough_room _ _ _ R1) (incl_appr _ (incl_refl _)))
    as (q2 & s2 & d2 & -> & F2 & D2 & S2 & R2 & L2). cbn [rbind].
  destruct D1 as [H1 V1], D2 as [H2 V2].
  assert (C1 : chars_of e (concat d1) d1) by (split; [reflexivity|now apply valid_chars]).
  assert (C2 : chars_of e (concat d2) d2) by (split; [reflexivity|now apply valid_chars]).
  rewrite (strccmp_lex e q1 q2 (concat d1) (concat d2) d1 d2 (-1)) by (assumption || lia). rewrite Z.eqb_refl. cbn [rbind].
  eauto 7.
Qed.

(** a total order up to case, whatever earlier calls left in the buffer *)
Theorem C79_compare_is_an_order : forall e p junk m1 m2 m3 cs1 cs2 cs3 b12 b21 b23 b13,
  text_in e m1 cs1 -> text_in e m2 cs2 -> text_in e m3 cs3 ->
  (8 <= length b12)%nat -> (8 <= length b21)%nat -> (8 <= length b23)%nat -> (8 <= length b13)%nat ->
  exists z12 z21 z23 z13 s12 s21 s23 s13,
    strcasecmp e p junk (Some b12) m1 m2 = Ok (z12, s12) /\ strcasecmp e p junk (Some b21) m2 m1 = Ok (z21, s21)
    /\ strcasecmp e p junk (Some b23) m2 m3 = Ok (z23, s23) /\ strcasecmp e p junk (Some b13) m1 m3 = Ok (z13, s13)
    /\ z21 = (- z12)%Z /\ ((z12 <= 0)%Z -> (z23 <= 0)%Z -> (z13 <= 0)%Z) /\ (z12 = 0%Z -> z23 = z13).
Proof.
  intros e p junk m1 m2 m3 cs1 cs2 cs3 b12 b21 b23 b13 T1 T2 T3 L1 L2 L3 L4.
  destruct (compare_value e p junk b12 m1 m2 cs1 cs2 T1 T2 L1) as (s12 & d1 & d2 & E12 & F1 & F2).
  destruct (compare_value e p junk b21 m2 m1 cs2 cs1 T2 T1 L2) as (s21 & d2' & d1' & E21 & F2' & F1').
  destruct (compare_value e p junk b23 m2 m3 cs2 cs3 T2 T3 L3) as (s23 & d2'' & d3 & E23 & F2'' & F3).
  destruct (compare_value e p junk b13 m1 m3 cs1 cs3 T1 T3 L4) as (s13 & d1'' & d3' & E13 & F1'' & F3').
  rewrite <- (forall2_fun _ _ _ _ _ F1 _ F1'), <- (forall2_fun _ _ _ _ _ F2 _ F2') in E21.
  rewrite <- (forall2_fun _ _ _ _ _ F2 _ F2'') in E23.
  rewrite <- (forall2_fun _ _ _ _ _ F1 _ F1''), <- (forall2_fun _ _ _ _ _ F3 _ F3') in E13.
  destruct good_chars as (G1 & G2 & G3 & G4).
  exists (lex ccmp d1 d2), (lex ccmp d2 d1), (lex ccmp d2 d3), (lex ccmp d1 d3), s12, s21, s23, s13.
  repeat (split; [assumption|]). split; [|split].
  - exact (G2 d1 d2 I I).
  - intros A B. eapply G4; [| | |exact A|exact B]; exact I.
  - intros A. apply (G3 d1 d2 I I) in A. subst d2. reflexivity.
Qed.
Print Assumptions C79_compare_is_an_order.

(** The buffer grows by half, once: a short first text with a character of three bytes is written
    past its end. *)
Theorem C79_first_text_refuted : exists m cs, text_in UTF8 m cs /\ length cs = 4%nat
  /\ to_master UTF8 Vietnamese 0 true None m = Undef.
Proof.
  exists [0xC4; 0x91; 0xC6; 0xB0; 0xE1; 0xBB; 0xA3; 99; 0], [[0xC4; 0x91]; [0xC6; 0xB0]; [0xE1; 0xBB; 0xA3]; [99]].
  split; [|split; [reflexivity|vm_compute; reflexivity]]. split.
  - split; [cbn; intuition discriminate|]. exists []. reflexivity.
  - assert (A : forall a c, utf8 a c -> a <> 0 -> valid UTF8 c).
    { intros a c U Z. split; [now apply (Text_Proofs2.utf8_is_char a)|eauto]. }
    repeat (apply Forall_cons; [|try apply Forall_nil]).
    + apply (A 0x111); [apply (utf8_2 4 17); vm_compute; auto; discriminate|discriminate].
    + apply (A 0x1B0); [apply (utf8_2 6 48); vm_compute; auto; discriminate|discriminate].
    + apply (A 0x1EE3); [apply (utf8_3 1 59 35); vm_compute; auto; discriminate|discriminate].
    + apply (A 99); [apply (utf8_1 99); vm_compute; auto; discriminate|discriminate].
Qed.
Print Assumptions C79_first_text_refuted.

(** In Latin-1 the multiplication sign is made a division sign. *)
Theorem C79_signs_have_no_case_refuted : to_master EXTASCII Generic 0 true None [215; 0] = Ok [247; 0; 0; 0; 0].
Proof. vm_compute. reflexivity. Qed.
Print Assumptions C79_signs_have_no_case_refuted.

(** ** examples *)
(** "Işık" in Turkish: the capital I becomes a dotless one *)
Example case_example : exists out, to_master UTF8 Turkish 7 true None [73; 0xC5; 0x9F; 0xC4; 0xB1; 107; 0] = Ok out
  /\ firstn 8 out = [0xC4; 0xB1; 0xC5; 0x9F; 0xC4; 0xB1; 107; 0]
  /\ enough None [[73]; [0xC5; 0x9F]; [0xC4; 0xB1]; [107]] [[73]; [0xC5; 0x9F]; [0xC4; 0xB1]; [107]].
Proof.
  eexists. split; [vm_compute; reflexivity|]. split; [reflexivity|]. right. split; [exact I|].
  repeat constructor.
Qed.
(** the same letters in Vietnamese, in a buffer of eight bytes *)
Example case_example_equal : exists s, strcasecmp UTF8 Vietnamese 7 (Some (repeat 0 8))
    [0xC4; 0x91; 0xC6; 0xB0; 0xE1; 0xBB; 0xA3; 99; 0] [0xC4; 0x90; 0xC6; 0xAF; 0xE1; 0xBB; 0xA2; 67; 0] = Ok (0%Z, s)
  /\ enough (Some (repeat 0 8)) [[0xC4; 0x91]; [0xC6; 0xB0]; [0xE1; 0xBB; 0xA3]; [99]] [].
Proof. eexists. split; [vm_compute; reflexivity|]. left. cbn. auto. Qed.
Example case_example_different : exists s, strcasecmp ASCII Generic 7 None [97; 66; 0] [65; 99; 0] = Ok ((-1)%Z, s).
Proof. eexists. vm_compute. reflexivity. Qed.
Example case_example_history : exists a b, calls UTF8 Generic 7 (Some (repeat 1 9)) [(true, [65; 66; 0]); (false, [0xE1; 0xBB; 0xA3; 99; 0])] = Ok [a; b]
  /\ firstn 3 a = [97; 98; 0] /\ firstn 5 b = [0xE1; 0xBB; 0xA3; 67; 0].
Proof. do 2 eexists. vm_compute. repeat split. Qed.
