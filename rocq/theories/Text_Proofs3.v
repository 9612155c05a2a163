(** The extraction functions as a whole. *)
From Coq Require Import List Arith ZArith NArith Bool Lia.
From Verif Require Import Base Text_Model Text_Spec Text_Proofs1 Text_Proofs2.
Import ListNotations.
Local Open Scope N_scope.

(** ** Splitting a text *)
Lemma split_while (P : list byte -> bool) cs : exists ws rest, cs = ws ++ rest
  /\ Forall (fun c => P c = true) ws /\ match rest with [] => True | c :: _ => P c = false end.
Proof.
  induction cs as [|c cs (ws & rest & E & Hw & Hr)].
  - exists [], []. repeat split. constructor.
  - destruct (P c) eqn:Ec.
    + exists (c :: ws), rest. subst. repeat split; auto.
    + exists [], (c :: cs). repeat split; auto.
Qed.

Lemma split_group cs : forall d, (0 < d)%Z -> exists w rest, cs = w ++ rest
  /\ (forall p q, w = p ++ q -> q <> [] -> (0 < d + depth p)%Z)
  /\ ((d + depth w = 0)%Z \/ (rest = [] /\ (0 < d + depth w)%Z)).
Proof.
  induction cs as [|c cs IH]; intros d Hd.
  - exists [], []. repeat split.
    + intros p q E Hq. apply eq_sym, app_eq_nil in E as [-> ->]. congruence.
    + right. cbn. split; [reflexivity|lia].
  - assert (Hs : (-1 <= dstep c <= 1)%Z).
    { unfold dstep. destruct c as [|x [|y c]]; try lia. destruct (x =? 123); [lia|]. destruct (x =? 125); lia. }
    destruct (Z.eq_dec (d + dstep c) 0) as [E|N].
    + exists [c], cs. split; [reflexivity|]. split.
      * intros p q Epq Hq. destruct p as [|p0 p]; [cbn; lia|].
        injection Epq as <- Epq. apply eq_sym, app_eq_nil in Epq as [-> ->]. congruence.
      * left. rewrite depth_cons. cbn [depth]. lia.
    + destruct (IH (d + dstep c)%Z ltac:(lia)) as (w & rest & -> & Hp & He).
      exists (c :: w), rest. split; [reflexivity|]. split.
      * intros p q Epq Hq. destruct p as [|p0 p]; [cbn; lia|].
        injection Epq as <- Epq. rewrite depth_cons. specialize (Hp p q Epq Hq). lia.
      * rewrite depth_cons. destruct He as [He|[-> He]]; [left|right; split]; auto; lia.
Qed.

Lemma split_token c cs : ~ space_char c -> exists tok rest, c :: cs = tok ++ rest /\ is_token tok rest.
Proof.
  intros Hc. destruct (list_eq_dec N.eq_dec c [123]) as [->|Hb].
  - destruct (split_group cs 1 ltac:(lia)) as (w & rest & -> & Hp & He).
    exists ([123] :: w), rest. split; [reflexivity|]. left. split; [eauto|].
    rewrite depth_cons. change (dstep [123]) with 1%Z. split; [|exact He].
    intros p q E Hp0 Hq. destruct p as [|p0 p]; [congruence|]. injection E as <- E.
    rewrite depth_cons. change (dstep [123]) with 1%Z. apply (Hp p q E Hq).
  - destruct (split_while (fun c => negb (spc c)) cs) as (w & rest & -> & Hw & Hr).
    exists (c :: w), rest. split; [reflexivity|]. right. split; [discriminate|]. split; [congruence|].
    split.
    + constructor; [exact Hc|]. eapply Forall_impl; [|exact Hw]. intros x Hx Hs. apply spc_ok in Hs.
      cbv beta in Hx. rewrite Hs in Hx. discriminate.
    + destruct rest as [|r rest]; [left; reflexivity|right]. exists r, rest. split; [reflexivity|].
      apply spc_ok. destruct (spc r); [reflexivity|discriminate].
Qed.

Lemma split_text cs : exists ws tok rest, cs = ws ++ tok ++ rest /\ Forall space_char ws
  /\ ((tok = [] /\ rest = []) \/ is_token tok rest).
Proof.
  destruct (split_while spc cs) as (ws & r & -> & Hw & Hr).
  assert (Hws : Forall space_char ws).
  { eapply Forall_impl; [|exact Hw]. intros c. apply spc_ok. }
  destruct r as [|c r].
  - exists ws, [], []. auto.
  - destruct (split_token c r) as (tok & rest & E & Ht).
    + intros H. apply spc_ok in H. congruence.
    + exists ws, tok, rest. rewrite E. auto.
Qed.

Lemma token_nonempty tok rest : is_token tok rest -> tok <> [].
Proof. intros [((t & ->) & _)|(H & _)]; [discriminate|exact H]. Qed.

Lemma tokenised_exists cs : exists ts, tokenised cs ts.
Proof.
  remember (length cs) as n. revert cs Heqn. induction n as [n IH] using lt_wf_ind. intros cs ->.
  destruct (split_text cs) as (ws & tok & rest & -> & Hw & [[-> ->]|Ht]).
  - exists []. rewrite !app_nil_r. constructor. exact Hw.
  - destruct (IH (length rest)) with (cs := rest) as (ts & Hts); [|reflexivity|].
    + rewrite !app_length. pose proof (token_nonempty _ _ Ht). destruct tok; [congruence|]. cbn. lia.
    + exists (tok :: ts). constructor; assumption.
Qed.

Lemma no_space c : spc c = false <-> ~ space_char c.
Proof. rewrite <- spc_ok. destruct (spc c); split; intros; try congruence; try (exfalso; auto; fail); auto. Qed.

(** ** [find_next_token] *)
Lemma token_found e cap len cs ws tok rest j :
  Forall (is_char e) cs -> cs = ws ++ tok ++ rest -> Forall space_char ws -> is_token tok rest ->
  (len < cap)%nat ->
  find_next_token e cap len (concat cs ++ 0 :: j) =
  Ok (if Nat.leb (length (concat tok)) len
      then {| tr_found := negb (match tok with t :: _ => if list_eq_dec N.eq_dec t [123] then (0 <? depth tok)%Z else false | [] => false end);
              tr_token := Some (concat tok); tr_rest := concat rest ++ 0 :: j |}
      else {| tr_found := false; tr_token := None;
              tr_rest := skipn len (concat (tok ++ rest) ++ 0 :: j) |}).
Proof.
  intros Hc -> Hw Ht Hcap. unfold find_next_token, finish at 1. cbn [length].
  destruct (Nat.ltb_spec 0 cap); [|lia]. cbn [rbind].
  assert (Hc2 : Forall (is_char e) (tok ++ rest)).
  { apply Forall_app in Hc. tauto. }
  rewrite (skip_ok e false ws _ (tok ++ rest) j); [|exact Hc| | |].
  - cbn [rbind]. destruct Ht as [((t & ->) & Hp & He)|(Hne & Hnb & Hns & Hr)].
    + cbn [app concat] in *. inversion Hc2; subst. cbn [app rd rbind].
      change (end_of_text 123) with false. change (123 =? 123) with true. cbn [andb].
      change (123 :: concat (t ++ rest) ++ 0 :: j) with (concat ([123] :: t ++ rest) ++ 0 :: j).
      rewrite (alt_loop_ok e cap len t); cbn [length]; try assumption; try lia.
      * rewrite Nat.add_0_l, Nat.sub_0_r, Z.add_0_l.
        destruct (Nat.leb_spec (length (concat ([123] :: t))) len) as [L|L].
        -- cbn [rbind app]. unfold finish. destruct (Nat.ltb_spec (length (concat ([123] :: t))) cap); [|lia].
           cbn [rbind]. cbn in L. destruct (Nat.leb_spec (S (length (concat t))) len) as [L2|L2]; [|lia].
           destruct (list_eq_dec N.eq_dec [123] [123]); [reflexivity|congruence].
        -- cbn [rbind]. cbn in L. destruct (Nat.leb_spec (S (length (concat t))) len) as [L2|L2]; [lia|]. reflexivity.
      * intros p q -> Hq. rewrite Z.add_0_l. apply (Hp ([123] :: p) q); [reflexivity|discriminate|exact Hq].
      * rewrite Z.add_0_l. destruct He as [He|[He _]]; [left; lia|right; exact He].
      * rewrite app_length. pose proof (concat_len e (t ++ rest) H3). rewrite app_length in H0. cbn. lia.
    + destruct tok as [|c w]; [congruence|]. cbn [app] in Hc2 |- *.
      inversion Hc2; subst. inversion Hns; subst.
      assert (Hx : exists l, rd (concat (c :: w ++ rest) ++ 0 :: j) = Ok l /\ l <> 0 /\ (l =? 123) = false).
      { cbn [concat]. rewrite <- app_assoc.
        destruct (lead_single e c (concat (w ++ rest) ++ 0 :: j) 0 123 H2 ltac:(lia)) as (l & El & E1 & E0 & _).
        exists l. split; [exact El|]. split; [exact E0|]. rewrite E1.
        destruct c as [|x [|y c]]; try reflexivity. destruct (N.eqb_spec x 123) as [->|]; [|reflexivity].
        exfalso. apply (Hnb w). reflexivity. }
      destruct Hx as (l & -> & Hl0 & Hl1). cbn [rbind]. unfold end_of_text.
      destruct (N.eqb_spec l 0); [contradiction|]. rewrite Hl1.
      rewrite (word_loop_ok e cap len w); cbn [length]; try assumption; try lia.
      * rewrite Nat.add_0_l, Nat.sub_0_r.
        destruct (list_eq_dec N.eq_dec c [123]) as [->|_]; [exfalso; apply (Hnb w); reflexivity|].
        destruct (Nat.leb_spec (length (concat (c :: w))) len) as [L|L]; cbn [rbind app].
        -- unfold finish. destruct (Nat.ltb_spec (length (concat (c :: w))) cap); [|lia]. reflexivity.
        -- reflexivity.
      * eapply Forall_impl; [|exact H5]. intros x Hx. apply no_space. exact Hx.
      * destruct rest as [|r rest]; [exact I|]. destruct Hr as [Hr|(r' & rs & E & Hs)]; [discriminate|].
        injection E as <- <-. apply spc_ok. exact Hs.
      * rewrite app_length. pose proof (concat_len e (c :: w ++ rest) Hc2). cbn [length] in H0.
        rewrite app_length in H0. cbn [length]. lia.
  - eapply Forall_impl; [|exact Hw]. intros c Hs. apply spc_ok in Hs. unfold skippable. rewrite Hs. reflexivity.
  - destruct Ht as [((t & ->) & _)|(Hne & _ & Hns & _)]; [reflexivity|].
    destruct tok as [|c w]; [congruence|]. cbn [app]. inversion Hns; subst. unfold skippable.
    apply no_space in H2. rewrite H2. reflexivity.
  - rewrite app_length. pose proof (concat_len e _ Hc). rewrite app_length in H0. lia.
Qed.

Lemma token_none e cap len ws j : Forall (is_char e) ws -> Forall space_char ws -> (0 < cap)%nat ->
  find_next_token e cap len (concat ws ++ 0 :: j) =
  Ok {| tr_found := false; tr_token := Some []; tr_rest := 0 :: j |}.
Proof.
  intros Hc Hw Hcap. unfold find_next_token, finish. cbn [length].
  destruct (Nat.ltb_spec 0 cap); [|lia]. cbn [rbind].
  rewrite <- (app_nil_r ws). rewrite (skip_ok e false ws _ [] j); [reflexivity| | | |].
  - rewrite app_nil_r. exact Hc.
  - eapply Forall_impl; [|exact Hw]. intros c Hs. apply spc_ok in Hs. unfold skippable. rewrite Hs. reflexivity.
  - exact I.
  - rewrite app_nil_r, app_length. pose proof (concat_len e _ Hc). lia.
Qed.

Lemma tokens_loop_ok e cap len cs ts : tokenised cs ts -> forall fuel j,
  Forall (is_char e) cs -> (len < cap)%nat ->
  Forall (fun t => (length (concat t) <= len)%nat /\ ~ unclosed t) ts -> (length cs < fuel)%nat ->
  tokens_loop fuel e cap len (concat cs ++ 0 :: j) = Ok (map (@concat _) ts).
Proof.
  intros Hk. induction Hk as [ws Hw|ws tok rest ts Hw Ht Hk IH]; intros [|f] j Hc Hcap Hfit Hf; try lia.
  - cbn [tokens_loop map]. destruct ws as [|c ws].
    + reflexivity.
    + inversion Hc; subst.
      assert (Hx : exists l, rd (concat (c :: ws) ++ 0 :: j) = Ok l /\ l <> 0).
      { cbn [concat]. rewrite <- app_assoc.
        destruct (lead_single e c (concat ws ++ 0 :: j) 0 0 H1 ltac:(lia)) as (l & El & _ & E0 & _). eauto. }
      destruct Hx as (l & -> & Hl). cbn [rbind]. unfold end_of_text. destruct (N.eqb_spec l 0); [contradiction|].
      rewrite token_none by (assumption || lia). cbn [rbind tr_rest tr_token tr_found].
      destruct f; [cbn in Hf; lia|]. reflexivity.
  - cbn [tokens_loop map]. pose proof (token_nonempty _ _ Ht) as Hne.
    assert (Hx : exists l, rd (concat (ws ++ tok ++ rest) ++ 0 :: j) = Ok l /\ l <> 0).
    { destruct (ws ++ tok ++ rest) as [|c xs] eqn:E.
      - apply app_eq_nil in E as [_ E]. apply app_eq_nil in E as [E _]. contradiction.
      - inversion Hc; subst. cbn [concat]. rewrite <- app_assoc.
        destruct (lead_single e c (concat xs ++ 0 :: j) 0 0 H1 ltac:(lia)) as (l & El & _ & E0 & _). eauto. }
    destruct Hx as (l & -> & Hl). cbn [rbind]. unfold end_of_text. destruct (N.eqb_spec l 0); [contradiction|].
    rewrite (token_found e cap len _ ws tok rest j Hc eq_refl Hw Ht Hcap). cbn [rbind].
    inversion Hfit as [|? ? [Hlen Hcl] Hfit2]; subst.
    destruct (Nat.leb_spec (length (concat tok)) len); [|lia]. cbn [tr_rest tr_token tr_found].
    rewrite IH; try assumption.
    + cbn [rbind]. destruct tok as [|t tok]; [congruence|].
      destruct (list_eq_dec N.eq_dec t [123]) as [->|]; [|reflexivity].
      destruct (Z.ltb_spec 0 (depth ([123] :: tok))); [|reflexivity].
      exfalso. apply Hcl. split; [assumption|eauto].
    + apply Forall_app in Hc as [_ Hc]. apply Forall_app in Hc. tauto.
    + rewrite !app_length in Hf. destruct tok; [congruence|]. cbn in Hf. lia.
Qed.

(** ** [find_next_alternation] *)
Lemma ends_piece_dec d cs : {ends_piece d cs} + {~ ends_piece d cs}.
Proof.
  unfold ends_piece. destruct cs as [|c cs]; [left; left; reflexivity|].
  destruct (Z_le_gt_dec d 0).
  - destruct (list_eq_dec N.eq_dec c [47]) as [->|N1]; [left; right; split; [assumption|exists cs; auto]|].
    destruct (list_eq_dec N.eq_dec c [125]) as [->|N2]; [left; right; split; [assumption|exists cs; auto]|].
    right. intros [H|(_ & cs' & [E|E])]; congruence.
  - right. intros [H|(H & _)]; [discriminate|lia].
Qed.

Lemma split_piece cs : forall c, exists w rest, cs = w ++ rest /\ is_piece (c :: w) rest.
Proof.
  assert (G : forall cs d, exists w rest, cs = w ++ rest
    /\ (forall p q, w = p ++ q -> q <> [] -> ~ ends_piece (d + depth p) (q ++ rest))
    /\ ends_piece (d + depth w) rest).
  { intros ds. induction ds as [|c ds IH]; intros d.
    - exists [], []. split; [reflexivity|]. split.
      + intros p q E Hq. apply eq_sym, app_eq_nil in E as [-> ->]. congruence.
      + left. reflexivity.
    - destruct (ends_piece_dec d (c :: ds)) as [E|N].
      + exists [], (c :: ds). split; [reflexivity|]. split.
        * intros p q Epq Hq. apply eq_sym, app_eq_nil in Epq as [-> ->]. congruence.
        * cbn [depth]. rewrite Z.add_0_r. exact E.
      + destruct (IH (d + dstep c)%Z) as (w & rest & -> & Hp & He). exists (c :: w), rest.
        split; [reflexivity|]. split.
        * intros p q Epq Hq. destruct p as [|p0 p].
          -- cbn in Epq. subst q. cbn [depth]. rewrite Z.add_0_r. exact N.
          -- injection Epq as <- Epq. rewrite depth_cons, Z.add_assoc. apply (Hp p q Epq Hq).
        * rewrite depth_cons, Z.add_assoc. exact He. }
  intros c. destruct (G cs (dstep c)) as (w & rest & -> & Hp & He). exists w, rest. split; [reflexivity|].
  split; [discriminate|]. split.
  - intros p q E Hp0 Hq. destruct p as [|p0 p]; [congruence|]. injection E as <- E. rewrite depth_cons.
    apply (Hp p q E Hq).
  - rewrite depth_cons. exact He.
Qed.

Lemma ends_piece_test e d c cs j : Forall (is_char e) (c :: cs) ->
  exists l, rd (concat (c :: cs) ++ 0 :: j) = Ok l /\
  ((negb (l =? 47) || (0 <? d)%Z) && (negb (l =? 125) || (0 <? d)%Z) && negb (end_of_text l) = true
   <-> ~ ends_piece d (c :: cs)).
Proof.
  intros Hc. inversion Hc; subst. cbn [concat]. rewrite <- app_assoc.
  destruct (lead_single e c (concat cs ++ 0 :: j) 0 47 H1 ltac:(lia)) as (l & El & E1 & E0 & _).
  destruct (lead_single e c (concat cs ++ 0 :: j) 0 125 H1 ltac:(lia)) as (l2 & El2 & E2 & _).
  assert (l2 = l) by congruence. subst l2. exists l. split; [exact El|].
  rewrite E1, E2. unfold end_of_text. destruct (N.eqb_spec l 0); [contradiction|]. cbn [negb].
  rewrite andb_true_r. unfold ends_piece.
  destruct (Z.ltb_spec 0 d).
  - rewrite !orb_true_r. cbn. split; [|auto]. intros _ [Hx|(Hx & _)]; [discriminate|lia].
  - rewrite !orb_false_r. destruct c as [|x [|y c]]; cbn [negb andb].
    + split; [|auto]. intros _ [Hx|(_ & cs' & [Hx|Hx])]; discriminate.
    + destruct (N.eqb_spec x 47) as [->|N1]; cbn [negb andb].
      * split; [discriminate|]. intros Hx. exfalso. apply Hx. right. split; [lia|]. exists cs. auto.
      * destruct (N.eqb_spec x 125) as [->|N2]; cbn [negb].
        -- split; [discriminate|]. intros Hx. exfalso. apply Hx. right. split; [lia|]. exists cs. auto.
        -- split; [|auto]. intros _ [Hx|(_ & cs' & [Hx|Hx])]; congruence.
    + split; [|auto]. intros _ [Hx|(_ & cs' & [Hx|Hx])]; discriminate.
Qed.

Lemma piece_cnt e c cnt : is_char e c -> forall l, rd c = Ok l ->
  (if negb (Nat.ltb 1 (length c)) && (l =? 125)
   then ((if (negb (Nat.ltb 1 (length c)) && (l =? 123)%N)%bool then (cnt + 1)%Z else cnt) - 1)%Z
   else if negb (Nat.ltb 1 (length c)) && (l =? 123) then (cnt + 1)%Z else cnt) = (cnt + dstep c)%Z.
Proof.
  intros H l El. unfold dstep. destruct c as [|x [|y c]].
  - discriminate.
  - injection El as ->. cbn [length Nat.ltb Nat.leb negb andb].
    destruct (N.eqb_spec l 123) as [->|]; [cbn; lia|]. destruct (l =? 125); lia.
  - cbn [length]. change (Nat.ltb 1 (S (S (length c)))) with true. cbn [negb andb]. lia.
Qed.

Lemma piece_loop_ok e cap len w : forall fuel c cnt out rest j,
  Forall (is_char e) (c :: w ++ rest) ->
  (forall p q, w = p ++ q -> q <> [] -> ~ ends_piece (cnt + depth (c :: p)) (q ++ rest)) ->
  ends_piece (cnt + depth (c :: w)) rest ->
  (length w < fuel)%nat -> (length out <= len)%nat -> (len <= cap)%nat ->
  piece_loop fuel e cap len cnt out (concat (c :: w ++ rest) ++ 0 :: j) =
  Ok (if Nat.leb (length out + length (concat (c :: w))) len
      then Copied (out ++ concat (c :: w)) (concat rest ++ 0 :: j)
      else Full (skipn (len - length out) (concat (c :: w ++ rest) ++ 0 :: j))).
Proof.
  induction w as [|d w IH]; intros [|f] c cnt out rest j Hc Hp Hr Hf Ho Hl; try (cbn in Hf; lia); cbn [app] in *;
    inversion Hc as [|? ? Hc1 Hc2]; subst; cbn [piece_loop];
    cbn [concat]; rewrite <- app_assoc; rewrite nbytes_char by assumption; cbn [rbind];
    match goal with |- context [rd (c ++ ?m)] =>
      destruct (lead_single e c m 0 123 Hc1 ltac:(lia)) as (l & El & _ & Hl0 & _); rewrite El end; cbn [rbind];
    assert (El' : rd c = Ok l) by (destruct Hc1 as (? & ? & -> & _); exact El);
    rewrite (piece_cnt e c cnt Hc1 l El').
  - destruct (le_lt_dec (length out + length c) len) as [L|L].
    + rewrite copy_char_ok by assumption. cbn [rbind].
      rewrite app_nil_r. destruct (Nat.leb_spec (length out + length c) len); [|lia].
      rewrite depth_cons in *. cbn [depth] in *. rewrite Z.add_0_r in *.
      destruct rest as [|d rest].
      * cbn [concat app rd rbind]. change (end_of_text 0) with true. cbn [negb]. rewrite andb_false_r. reflexivity.
      * destruct (ends_piece_test e (cnt + dstep c) d rest j Hc2) as (l2 & -> & Ht). cbn [rbind].
        match goal with |- context [if ?x then _ else _] => destruct x eqn:Ex end; [|reflexivity].
        exfalso. apply (proj1 Ht eq_refl). exact Hr.
    + rewrite copy_char_full by assumption. cbn [rbind].
      rewrite app_nil_r. destruct (Nat.leb_spec (length out + length c) len); [lia|]. reflexivity.
  - destruct (le_lt_dec (length out + length c) len) as [L|L].
    + rewrite copy_char_ok by assumption. cbn [rbind].
      change (d ++ concat (w ++ rest)) with (concat (d :: w ++ rest)).
      destruct (ends_piece_test e (cnt + dstep c) d (w ++ rest) j Hc2) as (l2 & -> & Ht). cbn [rbind].
      assert (Hne : ~ ends_piece (cnt + dstep c) (d :: w ++ rest)).
      { specialize (Hp [] (d :: w) eq_refl ltac:(discriminate)). rewrite depth_cons in Hp. cbn [depth] in Hp.
        rewrite Z.add_0_r in Hp. exact Hp. }
      apply Ht in Hne. rewrite Hne.
      specialize (IH f d (cnt + dstep c)%Z (out ++ c) rest j).
      rewrite IH; try assumption.
      * cbn [concat]. rewrite !app_length.
        destruct (Nat.leb_spec (length out + length c + (length d + length (concat w))) len),
          (Nat.leb_spec (length out + (length c + (length d + length (concat w)))) len); try lia.
        -- f_equal. f_equal. rewrite <- !app_assoc. reflexivity.
        -- f_equal. f_equal. apply full_split. exact L.
      * intros p q -> Hq. specialize (Hp (d :: p) q eq_refl Hq). rewrite depth_cons, Z.add_assoc in Hp. exact Hp.
      * rewrite depth_cons, Z.add_assoc in Hr. exact Hr.
      * cbn in Hf. lia.
      * rewrite app_length. lia.
    + rewrite copy_char_full by assumption. cbn [rbind].
      rewrite !app_length.
      match goal with |- context [Nat.leb ?x ?y] => destruct (Nat.leb_spec x y); [lia|] end. reflexivity.
Qed.

Definition skip_piece (c : list byte) : Prop := space_char c \/ c = [47].
Lemma skippable_ok c : skippable true c = true <-> skip_piece c.
Proof.
  unfold skippable, skip_piece. rewrite orb_true_iff, spc_ok. cbn [andb].
  destruct c as [|x [|y c]]; rewrite ?N.eqb_eq; intuition congruence.
Qed.

Lemma piece_found e cap len ws piece rest j :
  Forall (is_char e) (ws ++ piece ++ rest) -> Forall skip_piece ws -> is_piece piece rest ->
  (forall c p, piece = c :: p -> ~ skip_piece c) -> (len < cap)%nat ->
  find_next_alternation e cap len (concat (ws ++ piece ++ rest) ++ 0 :: j) =
  Ok (if Nat.leb (length (concat piece)) len
      then {| tr_found := true; tr_token := Some (concat piece); tr_rest := concat rest ++ 0 :: j |}
      else {| tr_found := false; tr_token := None;
              tr_rest := skipn len (concat (piece ++ rest) ++ 0 :: j) |}).
Proof.
  intros Hc Hw (Hne & Hp & He) Hs Hcap. unfold find_next_alternation, finish at 1. cbn [length].
  destruct (Nat.ltb_spec 0 cap); [|lia]. cbn [rbind].
  assert (Hc2 : Forall (is_char e) (piece ++ rest)) by (apply Forall_app in Hc; tauto).
  destruct piece as [|c w]; [congruence|].
  rewrite (skip_ok e true ws _ ((c :: w) ++ rest) j); [|exact Hc| | |].
  - cbn [rbind app] in *.
    assert (Hx : exists l, rd (concat (c :: w ++ rest) ++ 0 :: j) = Ok l /\ l <> 0).
    { inversion Hc2; subst. cbn [concat]. rewrite <- app_assoc.
      destruct (lead_single e c (concat (w ++ rest) ++ 0 :: j) 0 0 H2 ltac:(lia)) as (l & El & _ & E0 & _). eauto. }
    destruct Hx as (l & -> & Hl). cbn [rbind]. unfold end_of_text. destruct (N.eqb_spec l 0); [contradiction|].
    rewrite (piece_loop_ok e cap len w); cbn [length]; try assumption; try lia.
    + rewrite Nat.add_0_l, Nat.sub_0_r.
      destruct (Nat.leb_spec (length (concat (c :: w))) len) as [L|L]; cbn [rbind app].
      * unfold finish. destruct (Nat.ltb_spec (length (concat (c :: w))) cap); [|lia]. reflexivity.
      * reflexivity.
    + intros p q -> Hq. rewrite Z.add_0_l. apply (Hp (c :: p) q); [reflexivity|discriminate|exact Hq].
    + rewrite app_length. pose proof (concat_len e (c :: w ++ rest) Hc2) as K. cbn [length] in K |- *.
      rewrite app_length in K. lia.
  - eapply Forall_impl; [|exact Hw]. intros x Hx. apply skippable_ok. exact Hx.
  - cbn [app]. destruct (skippable true c) eqn:E; [|reflexivity]. apply skippable_ok in E.
    exfalso. exact (Hs c w eq_refl E).
  - rewrite app_length. pose proof (concat_len e _ Hc) as K. rewrite app_length in K. lia.
Qed.
Lemma piece_none e cap len ws j : Forall (is_char e) ws -> Forall skip_piece ws -> (0 < cap)%nat ->
  find_next_alternation e cap len (concat ws ++ 0 :: j) =
  Ok {| tr_found := false; tr_token := Some []; tr_rest := 0 :: j |}.
Proof.
  intros Hc Hw Hcap. unfold find_next_alternation, finish. cbn [length].
  destruct (Nat.ltb_spec 0 cap); [|lia]. cbn [rbind].
  rewrite <- (app_nil_r ws). rewrite (skip_ok e true ws _ [] j); [reflexivity| | | |].
  - rewrite app_nil_r. exact Hc.
  - eapply Forall_impl; [|exact Hw]. intros x Hx. apply skippable_ok. exact Hx.
  - exact I.
  - rewrite app_nil_r, app_length. pose proof (concat_len e _ Hc). lia.
Qed.
