(** Tokens and alternatives of a text, for the network. *)
From Coq Require Import List NArith ZArith Arith Bool Lia.
From Verif Require Import Base Text_Model Text_Spec Text_Proofs1 Text_Proofs2 Text_Proofs3 Word_Model Anet_Model Anet_Spec.
Import ListNotations.
Local Open Scope res_scope.

(** ** The room of the buffer *)
Lemma copy_cap cap cap' len k : len <= cap -> len <= cap' -> forall out m, copy_char cap len k out m = copy_char cap' len k out m.
Proof.
  intros H H'. induction k as [|k IH]; intros out m; [reflexivity|]. cbn [copy_char]. destruct (Nat.ltb_spec len (S (length out))); [reflexivity|].
  destruct (rd m); cbn [rbind]; try reflexivity. unfold put. destruct (Nat.ltb_spec (length out) cap); [|lia]. destruct (Nat.ltb_spec (length out) cap'); [|lia]. cbn [rbind]. apply IH.
Qed.
Lemma word_cap e cap cap' len : len <= cap -> len <= cap' -> forall fuel out m, word_loop fuel e cap len out m = word_loop fuel e cap' len out m.
Proof.
  intros H H'. induction fuel as [|f IH]; intros out m; [reflexivity|]. cbn [word_loop]. destruct (nbytes e m); cbn [rbind]; try reflexivity.
  rewrite (copy_cap cap cap') by assumption. destruct (copy_char cap' len a out m) as [[o m'|m']| | |]; cbn [rbind]; try reflexivity.
  destruct (rd m'); cbn [rbind]; try reflexivity. destruct (end_of_text _); [reflexivity|]. destruct (vtisspace e m') as [[]| | |]; cbn [rbind]; try reflexivity. apply IH.
Qed.
Lemma altl_cap e cap cap' len : len <= cap -> len <= cap' -> forall fuel c out m, alt_loop fuel e cap len c out m = alt_loop fuel e cap' len c out m.
Proof.
  intros H H'. induction fuel as [|f IH]; intros c out m; [reflexivity|]. cbn [alt_loop]. destruct (nbytes e m); cbn [rbind]; try reflexivity.
  destruct (rd m) as [b| | |]; cbn [rbind]; try reflexivity. cbv zeta.
  rewrite (copy_cap cap cap') by assumption. destruct (copy_char cap' len a out m) as [[o m'|m']| | |]; cbn [rbind]; try reflexivity.
  destruct (rd m'); cbn [rbind]; try reflexivity. destruct (_ && _); [|reflexivity]. apply IH.
Qed.
Lemma piece_cap e cap cap' len : len <= cap -> len <= cap' -> forall fuel c out m, piece_loop fuel e cap len c out m = piece_loop fuel e cap' len c out m.
Proof.
  intros H H'. induction fuel as [|f IH]; intros c out m; [reflexivity|]. cbn [piece_loop]. destruct (nbytes e m); cbn [rbind]; try reflexivity.
  destruct (rd m) as [b| | |]; cbn [rbind]; try reflexivity. cbv zeta.
  rewrite (copy_cap cap cap') by assumption. destruct (copy_char cap' len a out m) as [[o m'|m']| | |]; cbn [rbind]; try reflexivity.
  destruct (rd m'); cbn [rbind]; try reflexivity. destruct (_ && _); [|reflexivity]. apply IH.
Qed.
Lemma finish_cap cap out : length out < cap -> finish cap out = Ok out.
Proof. intros H. unfold finish. destruct (Nat.ltb_spec (length out) cap); [reflexivity|lia]. Qed.
Lemma find_token_cap e L m r : 0 < L -> find_next_token e (S L) L m = Ok r -> (forall t, tr_token r = Some t -> length t < L) -> find_next_token e L L m = Ok r.
Proof.
  intros L0 E HT. unfold find_next_token in *. rewrite finish_cap by exact L0. rewrite finish_cap in E by (cbn [length]; lia). cbn [rbind] in *.
  destruct (skip_loop _ e false m) as [m1| | |]; cbn [rbind] in *; try discriminate. destruct (rd m1) as [b| | |]; cbn [rbind] in *; try discriminate.
  destruct (end_of_text b); [exact E|]. destruct (b =? 123)%N.
  - rewrite (altl_cap e L (S L)) by lia. destruct (alt_loop _ e (S L) L 0 [] m1) as [[[c o] m2|m2]| | |]; cbn [rbind] in *; try discriminate; [|exact E].
    unfold finish at 1 in E. destruct (Nat.ltb_spec (length o) (S L)); cbn [rbind] in E; [|discriminate]. injection E as <-.
    cbn [tr_token] in HT. rewrite finish_cap by (apply HT; reflexivity). reflexivity.
  - rewrite (word_cap e L (S L)) by lia. destruct (word_loop _ e (S L) L [] m1) as [[o m2|m2]| | |]; cbn [rbind] in *; try discriminate; [|exact E].
    unfold finish at 1 in E. destruct (Nat.ltb_spec (length o) (S L)); cbn [rbind] in E; [|discriminate]. injection E as <-.
    cbn [tr_token] in HT. rewrite finish_cap by (apply HT; reflexivity). reflexivity.
Qed.
Lemma find_alt_cap e L m r : 0 < L -> find_next_alternation e (S L) L m = Ok r -> (forall t, tr_token r = Some t -> length t < L) -> find_next_alternation e L L m = Ok r.
Proof.
  intros L0 E HT. unfold find_next_alternation in *. rewrite finish_cap by exact L0. rewrite finish_cap in E by (cbn [length]; lia). cbn [rbind] in *.
  destruct (skip_loop _ e true m) as [m1| | |]; cbn [rbind] in *; try discriminate. destruct (rd m1) as [b| | |]; cbn [rbind] in *; try discriminate.
  destruct (end_of_text b); [exact E|].
  rewrite (piece_cap e L (S L)) by lia. destruct (piece_loop _ e (S L) L 0 [] m1) as [[o m2|m2]| | |]; cbn [rbind] in *; try discriminate; [|exact E].
  unfold finish at 1 in E. destruct (Nat.ltb_spec (length o) (S L)); cbn [rbind] in E; [|discriminate]. injection E as <-.
  cbn [tr_token] in HT. rewrite finish_cap by (apply HT; reflexivity). reflexivity.
Qed.
Lemma rd_first e (cs : chars) j : Forall (is_char e) cs -> cs <> [] -> exists l, rd (concat cs ++ 0%N :: j) = Ok l /\ l <> 0%N.
Proof.
  intros HC NE. destruct cs as [|c xs]; [congruence|]. inversion HC; subst. cbn [concat]. rewrite <- app_assoc.
  destruct (lead_single e c (concat xs ++ 0%N :: j) 0%N 0%N H1 ltac:(lia)) as (l & El & _ & E0 & _). eauto.
Qed.
(** ** The tokens *)
Lemma tokens_cap e L cs ts : tokenised cs ts -> forall fuel j, 0 < L -> Forall (is_char e) cs ->
  Forall (fun t => length (concat t) < L /\ ~ unclosed t) ts -> length cs < fuel ->
  tokens_loop fuel e L L (concat cs ++ 0%N :: j) = Ok (map (@concat _) ts).
Proof.
  intros Hk. induction Hk as [ws Hw|ws tok rest ts Hw Ht Hk IH]; intros [|f] j L0 Hc Hfit Hf; try lia.
  - cbn [tokens_loop map]. destruct ws as [|c ws]; [reflexivity|]. destruct (rd_first e (c :: ws) j Hc) as (l & -> & Hl); [congruence|].
    cbn [rbind]. unfold end_of_text. destruct (N.eqb_spec l 0); [contradiction|]. rewrite token_none by assumption. cbn [rbind tr_rest tr_token tr_found].
    destruct f; [cbn in Hf; lia|]. reflexivity.
  - cbn [tokens_loop map]. pose proof (token_nonempty _ _ Ht) as Hne. destruct (rd_first e (ws ++ tok ++ rest) j Hc) as (l & -> & Hl).
    { intros E. apply app_eq_nil in E as [_ E]. apply app_eq_nil in E as [E _]. contradiction. }
    cbn [rbind]. unfold end_of_text. destruct (N.eqb_spec l 0); [contradiction|]. inversion Hfit as [|? ? [Hlen Hcl] Hfit2]; subst.
    pose proof (token_found e (S L) L _ ws tok rest j Hc eq_refl Hw Ht ltac:(lia)) as TF. destruct (Nat.leb_spec (length (concat tok)) L); [|lia].
    rewrite (find_token_cap e L _ _ L0 TF) by (cbn [tr_token]; congruence). cbn [rbind tr_rest tr_token tr_found]. rewrite IH; try assumption.
    + cbn [rbind]. destruct tok as [|t tok]; [congruence|]. destruct (list_eq_dec N.eq_dec t [123%N]) as [->|]; [|reflexivity].
      destruct (Z.ltb_spec 0 (depth ([123%N] :: tok))); [|reflexivity]. exfalso. apply Hcl. split; [assumption|eauto].
    + apply Forall_app in Hc as [_ Hc]. apply Forall_app in Hc. tauto.
    + rewrite !app_length in Hf. destruct tok; [congruence|]. cbn in Hf. lia.
Qed.
(** ** A text has one division into tokens *)
Lemma token_unique e cs ws tok rest ws' tok' rest' : Forall (is_char e) cs ->
  cs = ws ++ tok ++ rest -> Forall space_char ws -> is_token tok rest ->
  cs = ws' ++ tok' ++ rest' -> Forall space_char ws' -> is_token tok' rest' -> tok = tok' /\ rest = rest'.
Proof.
  intros HC E W T E' W' T'. set (L := length (concat tok) + length (concat tok')).
  pose proof (token_found e (S L) L cs ws tok rest [] HC E W T ltac:(lia)) as F1. pose proof (token_found e (S L) L cs ws' tok' rest' [] HC E' W' T' ltac:(lia)) as F2.
  destruct (Nat.leb_spec (length (concat tok)) L); [|lia]. destruct (Nat.leb_spec (length (concat tok')) L); [|lia]. rewrite F1 in F2. injection F2 as _ A B.
  apply app_inv_tail in B. subst cs. assert (HC' := HC). rewrite E' in HC'. apply Forall_app in HC as [_ HC]. apply Forall_app in HC as [C1 C2].
  apply Forall_app in HC' as [_ HC']. apply Forall_app in HC' as [C3 C4]. split; eapply chars_inj; eassumption.
Qed.
Lemma no_token e cs ws tok rest : Forall (is_char e) cs -> cs = ws ++ tok ++ rest -> Forall space_char ws -> is_token tok rest -> ~ Forall space_char cs.
Proof.
  intros HC E W T SP. pose proof (token_found e (S (length (concat tok))) (length (concat tok)) cs ws tok rest [] HC E W T ltac:(lia)) as F1.
  rewrite (token_none e _ _ cs [] HC SP) in F1 by lia. destruct (Nat.leb_spec (length (concat tok)) (length (concat tok))); [|lia]. injection F1 as _ A _.
  subst cs. apply Forall_app in HC as [_ HC]. apply Forall_app in HC as [C1 _]. assert (tok = []) by (apply (chars_inj e tok []); [exact C1|constructor|symmetry; exact A]).
  subst tok. apply token_nonempty in T. congruence.
Qed.

(** ** The readings, token by token *)
Section Tok.
Variable e : enc.
Definition tokreads (tok : chars) (r : list word) : Prop :=
  ((forall t, tok <> [123%N] :: t) /\ exists w, stands_for e tok w /\ r = [w])
  \/ (exists inner a, tok = braces inner /\ depth inner = 0%Z /\ In a (alternatives inner) /\ reads e a r).
Lemma reads_tokens cs ts : Forall (is_char e) cs -> tokenised cs ts -> forall r, reads e cs r <-> exists rs, Forall2 tokreads ts rs /\ r = concat rs.
Proof.
  intros HC TK r. split.
  - intros R. revert ts TK HC. induction R as [ws W|ws tok rest w r W P SF R IH|ws inner rest a r1 r2 W G D A R1 _ R2 IH]; intros ts TK HC.
    + inversion TK as [ws' W' E1 E2|ws' tok' rest' ts' W' T' TK' E1 E2]; subst; [exists []; split; constructor|]. exfalso. exact (no_token e _ ws' tok' rest' HC eq_refl W' T' W).
    + inversion TK as [ws' W' E1 E2|ws' tok' rest' ts' W' T' TK' E1 E2].
      * exfalso. exact (no_token e _ ws tok rest HC eq_refl W (or_intror P) W').
      * destruct (token_unique e _ ws tok rest ws' tok' rest' HC eq_refl W (or_intror P) (eq_sym E1) W' T') as [-> ->].
        assert (HC2 : Forall (is_char e) rest') by (apply Forall_app in HC as [_ HC]; apply Forall_app in HC; tauto).
        destruct (IH ts' TK' HC2) as (rs & F & ->). exists ([w] :: rs). split; [constructor; [|exact F]|reflexivity]. left. destruct P as (_ & P & _). split; [exact P|eauto].
    + inversion TK as [ws' W' E1 E2|ws' tok' rest' ts' W' T' TK' E1 E2].
      * exfalso. exact (no_token e _ ws (braces inner) rest HC eq_refl W (or_introl G) W').
      * destruct (token_unique e _ ws (braces inner) rest ws' tok' rest' HC eq_refl W (or_introl G) (eq_sym E1) W' T') as [<- <-].
        assert (HC2 : Forall (is_char e) rest) by (apply Forall_app in HC as [_ HC]; apply Forall_app in HC; tauto).
        destruct (IH ts' TK' HC2) as (rs & F & ->). exists (r1 :: rs). split; [constructor; [|exact F]|reflexivity]. right. exists inner, a. auto.
  - intros (rs & F & ->). revert rs F HC. induction TK as [ws W|ws tok rest ts W T TK IH]; intros rs F HC; inversion F as [|? r1 ? rs' T1 F']; subst; [constructor; exact W|].
    assert (HC2 : Forall (is_char e) rest) by (apply Forall_app in HC as [_ HC]; apply Forall_app in HC; tauto).
    cbn [concat]. destruct T1 as [[NB (w & SF & ->)]|(inner & a & -> & D & A & R)].
    + cbn [app]. constructor; [exact W| |exact SF|apply IH; assumption]. destruct T as [((t & ET) & _)|T]; [exfalso; exact (NB t ET)|exact T].
    + apply rd_alt with (a := a); try assumption; [|apply IH; assumption]. destruct T as [T|(_ & T & _)]; [exact T|exfalso; exact (T _ eq_refl)].
Qed.
(** Tokens of a proper text. *)
Definition ptok (n : nat) (tok : chars) : Prop :=
  length (concat tok) < MAXSTRING /\
  (((forall t, tok <> [123%N] :: t) /\ exists w, stands_for e tok w /\ ~ In 123%N (w_value w))
   \/ (exists inner, tok = braces inner /\ depth inner = 0%Z /\ (forall p q, inner = p ++ q -> (0 <= depth p)%Z) /\
       alternatives inner <> [] /\ (forall a, In a (alternatives inner) -> proper e n a))).
Lemma braces_depth inner : depth (braces inner) = depth inner.
Proof. unfold braces. rewrite depth_cons, depth_app. change (dstep [123%N]) with 1%Z. change (depth [[125%N]]) with (-1)%Z. lia. Qed.
Lemma braces_inner inner rest : group (braces inner) rest -> forall p q, inner = p ++ q -> (0 <= depth p)%Z.
Proof.
  intros (_ & H & _) p q E. assert (0 < depth ([123%N] :: p))%Z; [|rewrite depth_cons in *; change (dstep [123%N]) with 1%Z in *; lia].
  apply (H _ (q ++ [[125%N]])); [unfold braces; rewrite E, <- app_assoc; reflexivity|congruence|]. destruct q; discriminate.
Qed.
Lemma proper_tokens n cs : proper e (S n) cs -> exists ts, tokenised cs ts /\ Forall (ptok n) ts.
Proof.
  intros P. remember (S n) as k eqn:K. revert K. induction P as [k ws W|k ws tok rest w W T SF L NB P IH|k ws inner rest W G D L NE HA _ P IH]; intros K.
  - exists []. split; [constructor; exact W|constructor].
  - destruct (IH K) as (ts & TK & F). exists (tok :: ts). split; [constructor; [exact W|right; exact T|exact TK]|]. constructor; [|exact F]. split; [exact L|]. left.
    destruct T as (_ & T & _). split; [exact T|eauto].
  - destruct (IH K) as (ts & TK & F). exists (braces inner :: ts). split; [constructor; [exact W|left; exact G|exact TK]|]. constructor; [|exact F]. split; [exact L|]. right.
    exists inner. injection K as ->. split; [reflexivity|]. split; [exact D|]. split; [exact (braces_inner inner rest G)|]. auto.
Qed.
End Tok.
