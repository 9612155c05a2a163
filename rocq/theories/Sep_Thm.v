(** C86: the characters of a text with spaces between them. *)
From Coq Require Import List NArith Arith Bool Lia.
From Verif Require Import Base Text_Model Text_Spec Text_Proofs1 Case_Model Sep_Model Sep_Spec Sep_Proofs.
Import ListNotations.
Local Open Scope res_scope.

(** The result is the units of the text, the hyphens left out if asked for, with a blank between
    every two neighbours that are to be apart.  The buffer is never left; it is at least as large
    afterwards as before. *)
Theorem C86_separated : forall e p na dh junk m s cs us out,
  holds m s -> chars_of e s cs -> units p cs us -> (p = Guarani -> e = GB \/ e = UTF8) -> 10 <= length out ->
  exists out', separate e p na dh junk m out = Ok out' /\ holds out' (spread e na (kept dh us)) /\ length out <= length out'.
Proof.
  intros e p na dh junk m s cs us out (NZ & j & ->) (-> & HC) U GU L10. unfold separate.
  assert (ST : Case_Model.store out 0 [0%N] = Ok (0%N :: skipn 1 out)).
  { unfold Case_Model.store. cbn [length Nat.add]. replace (1 <=? length out) with true by (symmetry; apply Nat.leb_le; lia). reflexivity. }
  rewrite ST. cbn [rbind]. destruct cs as [|c cs].
  - inversion U; subst. cbn [concat app rd rbind N.eqb]. exists (0%N :: skipn 1 out). split; [reflexivity|]. split.
    + split; [intros []|]. eexists. reflexivity.
    + cbn [length]. rewrite skipn_length. lia.
  - assert (B : exists b, rd (concat (c :: cs) ++ 0%N :: j) = Ok b /\ (b =? 0)%N = false).
    { pose proof (Forall_inv HC) as (l & r & -> & _ & F). exists l. split; [reflexivity|]. pose proof (Forall_inv F) as K. cbn beta in K. apply N.eqb_neq. lia. }
    destruct B as (b & -> & Hb). cbn [rbind]. rewrite Hb.
    assert (LF : length (c :: cs) <= length (concat (c :: cs) ++ 0%N :: j)).
    { rewrite app_length. clear - HC. induction HC as [|x l H _ IH]; [cbn; lia|]. destruct H as (a & r & -> & _). cbn [concat length app] in *. rewrite app_length. lia. }
    destruct (loop_ok e p na dh junk GU (c :: cs) us U _ [] (0%N :: skipn 1 out) 0 j HC ltac:(discriminate) LF) as (o & E & (HO & NZ' & _ & _ & _) & L).
    + split; [eexists; reflexivity|]. split; [intros []|]. split; [reflexivity|]. split; [cbn [length]; rewrite skipn_length; lia|constructor].
    + cbn [app] in *. exists o. split; [exact E|]. split; [split; [exact NZ'|exact HO]|]. cbn [length] in L. rewrite skipn_length in L. lia.
Qed.
Print Assumptions C86_separated.

(** Every text has units, and only in one way; they are the text cut into pieces. *)
Lemma tilde_g_dec g t : {tilde_g g t} + {~ tilde_g g t}.
Proof.
  unfold tilde_g. destruct (list_eq_dec N.eq_dec t [0xCC; 0x83]%N) as [-> |N]; [|right; tauto].
  destruct (list_eq_dec N.eq_dec g [71%N]) as [-> |N1]; [left; auto|]. destruct (list_eq_dec N.eq_dec g [103%N]) as [-> |N2]; [left; auto|right; tauto].
Qed.
Theorem C86_units : forall p cs, exists us, units p cs us /\ concat us = concat cs /\ forall us', units p cs us' -> us' = us.
Proof.
  intros p cs. assert (EX : forall n cs, length cs <= n -> exists us, units p cs us /\ concat us = concat cs).
  { induction n as [|n IH]; intros [|c l] L; try (exists []; split; [constructor|reflexivity]); try (cbn in L; lia).
    assert (ONE : (p = Guarani -> forall t cs', l = t :: cs' -> ~ tilde_g c t) -> exists us, units p (c :: l) us /\ concat us = concat (c :: l)).
    { intros H. destruct (IH l) as (us & U & E); [cbn in L; lia|]. exists (c :: us). split; [constructor; assumption|]. cbn. rewrite E. reflexivity. }
    destruct l as [|t l]; [apply ONE; intros _ t cs'; discriminate|].
    destruct (tilde_g_dec c t) as [T|T]; [|apply ONE; intros _ t' l' E; injection E as <- <-; exact T].
    assert (DP : p = Guarani \/ p <> Guarani) by (destruct p; auto; right; discriminate).
    destruct DP as [P|P]; [|apply ONE; intros K; congruence].
    destruct (IH l) as (us & U & E); [cbn in L; lia|]. exists ((c ++ t) :: us). split; [constructor; assumption|]. cbn. rewrite E, <- app_assoc. reflexivity. }
  destruct (EX _ cs (Nat.le_refl _)) as (us & U & E). exists us. split; [exact U|]. split; [exact E|].
  clear EX E. induction U as [|g t cs us P T U IH|c cs us NT U IH]; intros us' U'; inversion U'; subst.
  - reflexivity.
  - f_equal. apply IH. assumption.
  - exfalso. match goal with H : Guarani = Guarani -> _ |- _ => exact (H eq_refl _ _ eq_refl T) end.
  - exfalso. exact (NT eq_refl _ _ eq_refl ltac:(assumption)).
  - f_equal. apply IH. assumption.
Qed.
Print Assumptions C86_units.

(** A text without blanks, all its units apart: the units one after the other, each but the last
    followed by a blank. *)
Theorem C86_every_unit_apart : forall e us u, Forall (fun x => is_blank x = false) (us ++ [u]) ->
  spread e false (us ++ [u]) = concat (map (fun x => x ++ [32%N]) us) ++ u.
Proof.
  intros e us u. induction us as [|x us IH]; intros F; [cbn; rewrite app_nil_r; reflexivity|].
  cbn [app] in F. pose proof (Forall_inv F) as FX. specialize (IH (Forall_inv_tail F)). cbn [app spread map concat].
  rewrite <- !app_assoc. f_equal. destruct (us ++ [u]) as [|y l] eqn:E; [destruct us; discriminate|].
  pose proof (Forall_inv (Forall_inv_tail F)) as FY. unfold apart. rewrite FX, FY. cbn [negb andb]. rewrite IH. reflexivity.
Qed.
Print Assumptions C86_every_unit_apart.

(** In the encodings of one byte the profile of Guarani cuts the text off after such a letter. *)
Definition g_text : list N := [71; 0xCC; 0x83; 97]%N.
Theorem C86_guarani_one_byte_refuted : exists out', separate EXTASCII Guarani false false 0 (g_text ++ [0%N]) (repeat 0%N 100) = Ok out'
  /\ holds out' [71; 0xCC]%N.
Proof. eexists. split; [vm_compute; reflexivity|]. split; [cbn; intuition discriminate|]. eexists. cbn. reflexivity. Qed.
Print Assumptions C86_guarani_one_byte_refuted.
(** A buffer of one byte, doubled once, is too small for a character of four; sclite begins with
    100 bytes. *)
Theorem C86_small_buffer_refuted : separate UTF8 Generic false false 0 [0xF0; 0x9F; 0x98; 0x80; 0]%N [0%N] = Undef.
Proof. vm_compute. reflexivity. Qed.
Print Assumptions C86_small_buffer_refuted.

(** * The hypotheses can be met *)
Definition sample : list (list N) := [[97]; [98]; [45]; [0xC3; 0xA9]; [71]; [0xCC; 0x83]; [32]; [99]]%N.
Example sample_chars : holds (concat sample ++ [0%N]) (concat sample) /\ chars_of UTF8 (concat sample) sample.
Proof.
  split; [split; [cbn; intuition discriminate|eexists; reflexivity]|]. split; [reflexivity|].
  repeat (constructor; [eexists; eexists; split; [reflexivity|split; [cbn [char_size length]; lia|repeat constructor]]|]). constructor.
Qed.
Definition sample_u : list (list N) := [[97]; [98]; [45]; [0xC3; 0xA9]; [71; 0xCC; 0x83]; [32]; [99]]%N.
Example sample_units : units Guarani sample sample_u.
Proof.
  repeat (apply units_char; [intros _ t l E; injection E as <- _; unfold tilde_g; intuition discriminate|]).
  apply (units_g Guarani [71%N] [0xCC; 0x83]%N [[32%N]; [99%N]]); [reflexivity|split; auto|].
  apply units_char; [intros _ t l E; injection E as <- _; unfold tilde_g; intuition discriminate|].
  apply units_char; [intros _ t l E; discriminate|]. constructor.
Qed.
Example sample_spread : spread UTF8 true (kept true sample_u) = [97; 98; 32; 0xC3; 0xA9; 32; 71; 0xCC; 0x83; 32; 99]%N
  /\ spread UTF8 false (kept false sample_u) = [97; 32; 98; 32; 45; 32; 0xC3; 0xA9; 32; 71; 0xCC; 0x83; 32; 99]%N.
Proof. split; reflexivity. Qed.
