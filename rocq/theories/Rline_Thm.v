(** C62: a rule of the text filter is read as it is written. *)
From Coq Require Import List NArith ZArith Arith Bool Lia.
From Verif Require Import Base Rfilter_Model Rline_Model Rline_Spec Rline_Proofs.
Import ListNotations.
Local Open Scope res_scope.

Lemma solid_arrow : solid arrow.
Proof. repeat constructor; [exact white_61|exact white_62]. Qed.
Ltac lens := unfold arrow in *; repeat (rewrite ?app_length in *; cbn [length app] in * ); lia.

(** The common beginning of the two forms. *)
Lemma front l sp0 f1 sp1 r a :
  l = sp0 ++ f1 ++ sp1 ++ arrow ++ r -> blanks sp0 -> blanks sp1 -> field f1 a -> ~ has_arrow f1 -> length l <= 131 ->
  (exists x c y, l = x ++ c :: y /\ ~ white c /\ length x = length sp0) /\
  pltrimf l = length sp0 /\ find_arrow l = Some (length (sp0 ++ f1 ++ sp1)) /\
  (Z.of_nat (length sp0) < Z.of_nat (length (sp0 ++ f1 ++ sp1)))%Z /\
  (let* e := back_check (S (S (length l))) l (Z.of_nat (length sp0)) (Z.of_nat (length (sp0 ++ f1 ++ sp1)) - 1) in
   unbound l (Z.of_nat (length sp0)) e) = Ok a.
Proof.
  intros E B0 B1 F NA L. destruct (field_ends _ _ F) as [c [[m Em] [W [m' [z [Ez Wz]]]]]].
  split; [|split; [|split; [|split]]].
  - exists sp0, c, (m ++ sp1 ++ arrow ++ r). split; [rewrite E, Em; reflexivity|]. now split.
  - rewrite E, Em. cbn [app]. now apply pltrimf_ok.
  - rewrite E. replace (sp0 ++ f1 ++ sp1 ++ arrow ++ r) with ((sp0 ++ f1 ++ sp1) ++ arrow ++ r) by (rewrite <- !app_assoc; reflexivity).
    apply find_arrow_ok. intros H. apply NA. apply (arrow_blanks_r sp1 f1 B1). now apply (arrow_blanks_l sp0).
  - rewrite Em. lens.
  - replace l with ((sp0 ++ m') ++ z :: sp1 ++ arrow ++ r) at 2 by (rewrite E, Ez, <- !app_assoc; reflexivity).
    rewrite back_check_ok; [|exact B1|exact Wz|lens|rewrite Ez; lens|rewrite E; lens].
    cbn [rbind]. rewrite E.
    replace (Z.of_nat (length (sp0 ++ m'))) with (Z.of_nat (length sp0 + length f1) - 1)%Z by (rewrite Ez; lens).
    apply unbound_ok; [exact F|]. rewrite E in L. lens.
Qed.

(** A rule without context. *)
Theorem C62_free l a b :
  length l <= 131 -> free_rule l a b -> process_data_line l = Ok {| lctx := []; sin := a; rctx := []; sout := b |}.
Proof.
  intros L (sp0 & f1 & sp1 & i2 & sp2 & E & B0 & B1 & B2 & F & I & NA & SL).
  destruct (front l sp0 f1 sp1 (i2 ++ sp2) a E B0 B1 F NA L) as [[x [c [y [Ex [Wc Lx]]]]] [PL [FA [LT LHS]]]].
  destruct (item_end arrow i2 b solid_arrow) as [w [z [Ew Wz]]]; [discriminate|exact I|].
  assert (l = (sp0 ++ f1 ++ sp1 ++ w) ++ z :: sp2) as E2.
  { rewrite E. rewrite (app_assoc arrow), Ew, <- !app_assoc. reflexivity. }
  assert (prtrim l = Z.of_nat (length (sp0 ++ f1 ++ sp1 ++ w))) as PR by (rewrite E2; now apply prtrim_ok).
  assert (length w + 1 = 2 + length i2) as LW by (apply (f_equal (@length N)) in Ew; lens).
  unfold process_data_line. cbv zeta. rewrite PL, FA, PR.
  rewrite (proj2 (Z.ltb_ge _ _)) by lens. rewrite (proj2 (Z.ltb_lt _ _) LT), LHS. cbn [rbind].
  assert (context_mark l = None) as ->.
  { unfold context_mark. destruct SL as [SL|[p [q [El [NQ NO]]]]]; [now rewrite strrchr_none|].
    rewrite El, strrchr_ok by exact NQ. rewrite skipn_len_app by reflexivity.
    destruct (before _ _) eqn:BE; [reflexivity|]. apply before_opens in BE. contradiction. }
  cbn [rbind]. rewrite E. replace (sp0 ++ f1 ++ sp1 ++ arrow ++ i2 ++ sp2) with ((sp0 ++ f1 ++ sp1) ++ arrow ++ i2 ++ sp2) by (rewrite <- !app_assoc; reflexivity).
  rewrite (get_item_ok (sp0 ++ f1 ++ sp1) arrow i2 b sp2); [reflexivity|exact solid_arrow|discriminate|exact I| |lens].
  rewrite E in L. lens.
Qed.
Print Assumptions C62_free.

(** A rule with a context. *)
Theorem C62_context l a b c d :
  length l <= 131 -> context_rule l a b c d -> process_data_line l = Ok {| lctx := c; sin := a; rctx := d; sout := b |}.
Proof.
  intros L (sp0 & f1 & sp1 & i2 & sp2 & i3 & sp3 & slot & i4 & sp4 & H). cbv zeta in H.
  destruct H as (E & B0 & B1 & B2 & B3 & B4 & F & I2 & I3 & I4 & NA & SN & SA & N3 & N4 & NU & OP).
  destruct (front l sp0 f1 sp1 (i2 ++ sp2 ++ [47%N] ++ i3 ++ sp3 ++ slot ++ i4 ++ sp4) a E B0 B1 F NA L)
    as [[x [c0 [y [Ex [Wc Lx]]]]] [PL [FA [LT LHS]]]].
  assert (solid slot) as SS.
  { eapply Forall_impl; [|exact SA]. intros u <-. exact white_95. }
  assert (solid [47%N]) as S47 by (repeat constructor; exact white_47).
  destruct (item_end arrow i2 b solid_arrow) as [w [z [Ew Wz]]]; [discriminate|exact I2|].
  destruct (item_end [47%N] i3 c S47) as [w3 [z3 [Ew3 Wz3]]]; [discriminate|exact I3|].
  destruct (item_end slot i4 d SS SN I4) as [w4 [z4 [Ew4 Wz4]]].
  assert (length w + 1 = 2 + length i2) as LW by (apply (f_equal (@length N)) in Ew; lens).
  assert (length w3 + 1 = 1 + length i3) as LW3 by (apply (f_equal (@length N)) in Ew3; lens).
  assert (length w4 + 1 = length slot + length i4) as LW4 by (apply (f_equal (@length N)) in Ew4; lens).
  assert (forall t, blanks t -> ~ In 47%N t) as BN.
  { intros t T X. unfold blanks in T. rewrite Forall_forall in T. apply T in X. now apply white_47. }
  assert (~ In 47%N slot) as SL47.
  { intros X. rewrite Forall_forall in SA. apply SA in X. discriminate. }
  set (p := sp0 ++ f1 ++ sp1 ++ arrow ++ i2 ++ sp2) in *.
  set (q := i3 ++ sp3 ++ slot ++ i4 ++ sp4) in *.
  assert (l = p ++ 47%N :: q) as Ep by (rewrite E; subst p; rewrite <- !app_assoc; reflexivity).
  assert (context_mark l = Some (length p)) as CM.
  { unfold context_mark. rewrite Ep, strrchr_ok.
    - rewrite skipn_len_app by reflexivity. now rewrite (proj2 (before_opens q) OP).
    - subst q. intros X. repeat (apply in_app_or in X; destruct X as [X|X]); auto; first [exact (BN _ B3 X)|exact (BN _ B4 X)]. }
  assert (strchr (skipn (length p) l) 95 = Some (1 + length i3 + length sp3)) as ST.
  { rewrite Ep, skipn_len_app by reflexivity. destruct slot as [|u slot']; [congruence|]. inversion SA; subst u.
    replace (47%N :: q) with ((47%N :: i3 ++ sp3) ++ 95%N :: slot' ++ i4 ++ sp4) by (subst q; cbn [app]; rewrite <- !app_assoc; reflexivity).
    rewrite strchr_ok.
    - f_equal. lens.
    - intros [X|X]; [lia|]. apply in_app_or in X. destruct X as [X|X]; [now apply NU|].
      unfold blanks in B3. rewrite Forall_forall in B3. apply B3 in X. now apply white_95. }
  assert (prtrim l = Z.of_nat (length (p ++ [47%N] ++ i3 ++ sp3 ++ w4))) as PR.
  { replace l with ((p ++ [47%N] ++ i3 ++ sp3 ++ w4) ++ z4 :: sp4); [now apply prtrim_ok|].
    rewrite Ep. subst q. rewrite (app_assoc slot), Ew4, <- !app_assoc. reflexivity. }
  unfold process_data_line. cbv zeta. rewrite PL, FA, PR, CM.
  assert (length sp0 <= length p) as LP by (subst p; lens).
  rewrite (proj2 (Z.ltb_ge _ _)) by lens. rewrite (proj2 (Z.ltb_lt _ _) LT), LHS. cbn [rbind].
  (* the right hand side *)
  assert (back_read (S (S (length l))) l (Z.of_nat (length (sp0 ++ f1 ++ sp1))) (Z.of_nat (length p) - 1)
          = Ok (Z.of_nat (length (sp0 ++ f1 ++ sp1 ++ w)))) as ->.
  { replace l with ((sp0 ++ f1 ++ sp1 ++ w) ++ z :: sp2 ++ 47%N :: q) at 2.
    - apply back_read_ok; [exact B2|exact Wz|lens| |rewrite E; lens].
      subst p. lens.
    - rewrite Ep. subst p. rewrite (app_assoc arrow), Ew, <- !app_assoc. reflexivity. }
  cbn [rbind].
  assert (get_item l (Z.of_nat (length (sp0 ++ f1 ++ sp1))) (Z.of_nat (length (sp0 ++ f1 ++ sp1 ++ w))) = Ok b) as ->.
  { replace l with ((sp0 ++ f1 ++ sp1) ++ arrow ++ i2 ++ sp2 ++ 47%N :: q) by (rewrite E, <- !app_assoc; reflexivity).
    apply get_item_ok; [exact solid_arrow|discriminate|exact I2| |lens]. rewrite E in L. lens. }
  cbn [rbind]. rewrite ST.
  (* the left context *)
  assert (back_read (S (S (length l))) l (Z.of_nat (length p)) (Z.of_nat (length p + (1 + length i3 + length sp3)) - 1)
          = Ok (Z.of_nat (length (p ++ w3)))) as ->.
  { replace l with ((p ++ w3) ++ z3 :: sp3 ++ slot ++ i4 ++ sp4) at 2.
    - apply back_read_ok; [exact B3|exact Wz3|lens|lens|rewrite Ep; subst q; lens].
    - rewrite Ep. subst q. change (47%N :: i3 ++ sp3 ++ slot ++ i4 ++ sp4) with (([47%N] ++ i3 ++ sp3 ++ slot ++ i4 ++ sp4)).
      rewrite (app_assoc [47%N]), Ew3, <- !app_assoc. reflexivity. }
  cbn [rbind].
  assert (get_item l (Z.of_nat (length p)) (Z.of_nat (length (p ++ w3))) = Ok c) as ->.
  { replace l with (p ++ [47%N] ++ i3 ++ sp3 ++ slot ++ i4 ++ sp4) by (rewrite Ep; reflexivity).
    apply get_item_ok; [exact S47|discriminate|exact I3| |lens]. rewrite Ep in L. subst q. lens. }
  cbn [rbind].
  (* the right context *)
  assert (get_item l (Z.of_nat (length p + (1 + length i3 + length sp3))) (Z.of_nat (length (p ++ [47%N] ++ i3 ++ sp3 ++ w4))) = Ok d) as ->.
  { replace l with ((p ++ [47%N] ++ i3 ++ sp3) ++ slot ++ i4 ++ sp4) by (rewrite Ep; subst q; rewrite <- !app_assoc; reflexivity).
    replace (length p + (1 + length i3 + length sp3)) with (length (p ++ [47%N] ++ i3 ++ sp3)) by lens.
    apply get_item_ok; [exact SS|exact SN|exact I4| |lens]. rewrite Ep in L. subst q. lens. }
  reflexivity.
Qed.
Print Assumptions C62_context.

(** The reading of a line always ends, with a rule or an error code, and looks outside of the line
    only when the mark of the context is its first character. *)
Lemma at_in l i : (0 <= i <= Z.of_nat (length l))%Z -> exists c, at_ l i = Ok c /\ (i = Z.of_nat (length l) -> isspace c = false).
Proof.
  intros H. unfold at_. rewrite (proj2 (Z.ltb_ge _ _)) by lia. destruct (nth_error l (Z.to_nat i)) as [c|] eqn:E.
  - exists c. split; [reflexivity|]. intros ->. exfalso. assert (nth_error l (Z.to_nat (Z.of_nat (length l))) <> None) as X by congruence.
    apply nth_error_Some in X. lia.
  - apply nth_error_None in E. rewrite (proj2 (Z.eqb_eq _ _)) by lia. now exists 0%N.
Qed.
Lemma back_check_in l start : (0 <= start)%Z -> forall fuel e, (start <= e <= Z.of_nat (length l))%Z -> (e - start < Z.of_nat fuel)%Z ->
  exists e', back_check fuel l start e = Ok e' /\ (start <= e' <= e)%Z.
Proof.
  intros S0. induction fuel as [|fuel IH]; intros e H FU; [lia|]. cbn [back_check]. destruct (e >? start)%Z eqn:G.
  - apply Z.gtb_lt in G. destruct (at_in l e) as [c [-> _]]; [lia|]. cbn [rbind]. destruct (isspace c); [|exists e; split; [reflexivity|lia]].
    destruct (IH (e - 1)%Z) as [e' [E' B]]; [lia|lia|]. exists e'. split; [exact E'|lia].
  - exists e. split; [reflexivity|lia].
Qed.
Lemma back_read_in l start : (0 <= start)%Z -> forall fuel e, (0 <= e <= Z.of_nat (length l))%Z -> (e - start < Z.of_nat fuel)%Z -> 0 < fuel ->
  exists e', back_read fuel l start e = Ok e' /\ (0 <= e' <= e)%Z.
Proof.
  intros S0. induction fuel as [|fuel IH]; intros e H FU FP; [lia|]. cbn [back_read].
  destruct (at_in l e) as [c [-> _]]; [lia|]. cbn [rbind]. destruct (isspace c && (e >? start)%Z) eqn:G.
  - apply andb_true_iff in G. destruct G as [_ G]. apply Z.gtb_lt in G.
    destruct (IH (e - 1)%Z) as [e' [E' B]]; [lia|lia|lia|]. exists e'. split; [exact E'|lia].
  - exists e. split; [reflexivity|lia].
Qed.
Lemma skip_word_in l e : (e <= Z.of_nat (length l))%Z -> forall fuel s, (0 <= s <= Z.of_nat (length l))%Z -> (e - s < Z.of_nat fuel)%Z -> 0 < fuel ->
  exists s', skip_word fuel l s e = Ok s' /\ (0 <= s' <= Z.of_nat (length l))%Z.
Proof.
  intros EL. induction fuel as [|fuel IH]; intros s H FU FP; [lia|]. cbn [skip_word].
  destruct (at_in l s) as [c [-> _]]; [lia|]. cbn [rbind]. destruct (negb (isspace c) && (s <? e)%Z) eqn:G.
  - apply andb_true_iff in G. destruct G as [_ G]. apply Z.ltb_lt in G.
    destruct (IH (s + 1)%Z) as [s' [E' B]]; [lia|lia|lia|]. now exists s'.
  - exists s. split; [reflexivity|lia].
Qed.
Lemma skip_space_in l : forall fuel s, (0 <= s <= Z.of_nat (length l))%Z -> (Z.of_nat (length l) - s < Z.of_nat fuel)%Z ->
  exists s', skip_space fuel l s = Ok s' /\ (0 <= s' <= Z.of_nat (length l))%Z.
Proof.
  induction fuel as [|fuel IH]; intros s H FU; [lia|]. cbn [skip_space].
  destruct (at_in l s) as [c [-> EQ]]; [lia|]. cbn [rbind]. destruct (isspace c).
  - destruct (Z.eq_dec s (Z.of_nat (length l))) as [X|X]; [discriminate (EQ X)|].
    destruct (IH (s + 1)%Z) as [s' [E' B]]; [lia|lia|]. now exists s'.
  - exists s. split; [reflexivity|lia].
Qed.
Lemma unbound_in l s e : (0 <= s <= Z.of_nat (length l))%Z -> (0 <= e <= Z.of_nat (length l))%Z -> exists v, unbound l s e = Ok v.
Proof.
  intros S E. unfold unbound. destruct (at_in l s S) as [a [-> _]]. destruct (at_in l e E) as [b [-> _]]. cbn [rbind].
  destruct (_ || _); eexists; reflexivity.
Qed.
Lemma get_item_in l s e : (0 <= s <= Z.of_nat (length l))%Z -> (e <= Z.of_nat (length l))%Z -> exists v, get_item l s e = Ok v.
Proof.
  intros S E. unfold get_item. cbv zeta.
  destruct (skip_word_in l e E (Datatypes.S (Datatypes.S (length l))) s S) as [s1 [-> B1]]; [lia|lia|]. cbn [rbind].
  destruct (s1 <? e)%Z eqn:G; [|now exists []]. apply Z.ltb_lt in G.
  destruct (skip_space_in l (Datatypes.S (Datatypes.S (length l))) s1 B1) as [s2 [-> B2]]; [lia|]. cbn [rbind].
  apply unbound_in; [exact B2|lia].
Qed.
Lemma pltrimf_le l : pltrimf l <= length l.
Proof. induction l as [|c l IH]; cbn; [lia|]. destruct (isspace c); cbn; lia. Qed.
Lemma prtrim_lt l : (-1 <= prtrim l < Z.of_nat (length l))%Z.
Proof. induction l as [|c l IH]; cbn [prtrim length]; [lia|]. destruct (prtrim l =? -1)%Z; [destruct (isspace c)|]; lia. Qed.
Lemma find_arrow_lt l q : find_arrow l = Some q -> q < length l.
Proof.
  revert q; induction l as [|x l IH]; intros q H; [discriminate|]. destruct l as [|y l]; [discriminate|].
  rewrite find_arrow_cons2 in H. destruct (_ && _); [injection H as <-; cbn; lia|].
  destruct (find_arrow (y :: l)) as [k|]; [|discriminate]. injection H as <-. specialize (IH k eq_refl). cbn in *. lia.
Qed.
Lemma find_arrow_none l : find_arrow l = None <-> ~ has_arrow l.
Proof.
  split.
  - intros H [a [b ->]]. induction a as [|x a IH]; [discriminate|]. cbn [app] in H.
    destruct (a ++ arrow ++ b) as [|y r] eqn:E; [destruct a; discriminate|].
    rewrite find_arrow_cons2 in H. destruct (_ && _); [discriminate|]. destruct (find_arrow (y :: r)); [discriminate|]. now apply IH.
  - induction l as [|x l IH]; intros H; [reflexivity|]. destruct l as [|y l]; [reflexivity|]. rewrite find_arrow_cons2.
    destruct ((x =? 61) && (y =? 62))%N eqn:E.
    + exfalso. apply H. apply andb_true_iff in E. rewrite !N.eqb_eq in E. destruct E as [-> ->]. exists [], l. reflexivity.
    + rewrite IH; [reflexivity|]. intros [a [b E2]]. apply H. exists (x :: a), b. now rewrite E2.
Qed.
Lemma strrchr_lt l c i : strrchr l c = Some i -> i < length l.
Proof.
  revert i; induction l as [|x l IH]; intros i H; [discriminate|]. cbn in H. destruct (strrchr l c) as [k|].
  - injection H as <-. specialize (IH k eq_refl). cbn. lia.
  - destruct (x =? c)%N; [|discriminate]. injection H as <-. cbn. lia.
Qed.
Lemma strchr_lt l c i : strchr l c = Some i -> i < length l.
Proof.
  revert i; induction l as [|x l IH]; intros i H; [discriminate|]. cbn in H.
  destruct (x =? c)%N; [injection H as <-; cbn; lia|]. destruct (strchr l c) as [k|]; [|discriminate].
  injection H as <-. specialize (IH k eq_refl). cbn. lia.
Qed.
Lemma strrchr_char l c i : strrchr l c = Some i -> nth_error l i = Some c.
Proof.
  revert i; induction l as [|x l IH]; intros i H; [discriminate|]. cbn in H. destruct (strrchr l c) as [k|].
  - injection H as <-. now apply IH.
  - destruct (x =? c)%N eqn:E; [|discriminate]. injection H as <-. apply N.eqb_eq in E. now subst.
Qed.

Lemma trim_blank l : (prtrim l - Z.of_nat (pltrimf l) + 1 < 1)%Z <-> blanks l.
Proof.
  split.
  - intros H. induction l as [|c l IH]; [constructor|]. cbn [prtrim pltrimf] in H. pose proof (prtrim_lt l). pose proof (pltrimf_le l).
    destruct (isspace c) eqn:W.
    + constructor; [now apply white_space|]. apply IH. destruct (prtrim l =? -1)%Z eqn:P; lia.
    + destruct (prtrim l =? -1)%Z eqn:P; lia.
  - intros B. rewrite prtrim_blanks by exact B. lia.
Qed.

Theorem C62_defined l :
  (blanks l \/ ~ has_arrow l -> process_data_line l = Exit) /\
  (~ blanks l -> has_arrow l -> (forall q, l = 47%N :: q -> In 47%N q \/ ~ opens q) -> exists r, process_data_line l = Ok r).
Proof.
  split.
  - unfold process_data_line. cbv zeta. intros H. destruct (_ <? 1)%Z eqn:B; [reflexivity|]. apply Z.ltb_ge in B.
    destruct H as [H|H]; [apply trim_blank in H; lia|]. apply find_arrow_none in H. now rewrite H.
  - intros NB HA NS. unfold process_data_line. cbv zeta.
    destruct (_ <? 1)%Z eqn:B; [apply Z.ltb_lt in B; apply trim_blank in B; contradiction|].
    destruct (find_arrow l) as [q|] eqn:FA; [|apply find_arrow_none in FA; contradiction].
    apply find_arrow_lt in FA. pose proof (pltrimf_le l) as PL. pose proof (prtrim_lt l) as PR.
    assert (exists v, (if (Z.of_nat (pltrimf l) <? Z.of_nat q)%Z then
       let* e := back_check (S (S (length l))) l (Z.of_nat (pltrimf l)) (Z.of_nat q - 1) in unbound l (Z.of_nat (pltrimf l)) e else Ok []) = Ok v) as [v ->].
    { destruct (Z.of_nat (pltrimf l) <? Z.of_nat q)%Z eqn:G; [|exists []; reflexivity]. apply Z.ltb_lt in G.
      destruct (back_check_in l (Z.of_nat (pltrimf l)) ltac:(lia) (S (S (length l))) (Z.of_nat q - 1)) as [e [-> BE]]; [lia|lia|].
      cbn [rbind]. apply unbound_in; lia. }
    cbn [rbind]. destruct (context_mark l) as [c|] eqn:CM.
    + assert (strrchr l 47 = Some c /\ before (strchr (skipn c l) 93) (strchr (skipn c l) 91) = false) as [SR BF].
      { unfold context_mark in CM. destruct (strrchr l 47) as [k|]; [|discriminate]. destruct (before _ _) eqn:BF; [discriminate|].
        injection CM as ->. now split. }
      assert (c <> 0) as C0.
      { intros ->. pose proof (strrchr_char _ _ _ SR) as X. destruct l as [|x l']; [discriminate|]. cbn in X. injection X as ->.
        destruct (NS l' eq_refl) as [Y|Y].
        - cbn [strrchr] in SR. apply in_split in Y. destruct Y as [a [b ->]].
          assert (exists k, strrchr (a ++ 47%N :: b) 47 = Some k) as [k K].
          { clear. induction a as [|x a IH]; cbn [app strrchr].
            + destruct (strrchr b 47); [eauto|]. exists 0. reflexivity.
            + destruct IH as [k ->]. eauto. }
          rewrite K in SR. discriminate.
        - cbn [skipn] in BF. apply before_opens in BF. contradiction. }
      apply strrchr_lt in SR.
      destruct (back_read_in l (Z.of_nat q) ltac:(lia) (S (S (length l))) (Z.of_nat c - 1)) as [e [-> BE]]; [lia|lia|lia|]. cbn [rbind].
      destruct (get_item_in l (Z.of_nat q) e) as [b ->]; [lia|lia|]. cbn [rbind].
      destruct (strchr (skipn c l) 95) as [k|] eqn:SC; [|eauto]. apply strchr_lt in SC. rewrite skipn_length in SC.
      destruct (back_read_in l (Z.of_nat c) ltac:(lia) (S (S (length l))) (Z.of_nat (c + k) - 1)) as [e2 [-> BE2]]; [lia|lia|lia|]. cbn [rbind].
        destruct (get_item_in l (Z.of_nat c) e2) as [x ->]; [lia|lia|]. cbn [rbind].
        destruct (get_item_in l (Z.of_nat (c + k)) (prtrim l)) as [y ->]; [lia|lia|]. cbn [rbind]. eauto.
    + cbn [rbind]. destruct (get_item_in l (Z.of_nat q) (prtrim l)) as [b ->]; [lia|lia|]. cbn [rbind]. eauto.
Qed.
Print Assumptions C62_defined.

(** Without white space after the arrow the right hand side is lost:  a=>b  deletes a. *)
Theorem C62_tight_arrow_refuted :
  ~ (forall l sp f1 i2 a b, l = f1 ++ sp ++ arrow ++ i2 -> blanks sp -> field f1 a -> field i2 b -> ~ has_arrow f1 ->
       ~ In 47%N l -> length l <= 131 ->
       process_data_line l = Ok {| lctx := []; sin := a; rctx := []; sout := b |}).
Proof.
  assert (forall c, ~ white c -> c <> 34%N -> c <> 91%N -> field [c] [c]) as F.
  { intros c W Q K. apply plain.
    - split; [discriminate|]. now split.
    - intros [v E]. injection E as E _. congruence.
    - intros [v E]. injection E as E _. congruence.
    - congruence. }
  intros H. specialize (H [97; 61; 62; 98]%N [] [97]%N [98]%N [97]%N [98]%N eq_refl).
  assert (process_data_line [97; 61; 62; 98]%N = Ok {| lctx := []; sin := [97]%N; rctx := []; sout := [98]%N |}) as X.
  { apply H.
    - constructor.
    - apply F; [unfold white; cbn; lia|lia|lia].
    - apply F; [unfold white; cbn; lia|lia|lia].
    - intros [a [b E]]. destruct a as [|? [|]]; discriminate.
    - cbn. lia.
    - cbn. lia. }
  discriminate X.
Qed.
Print Assumptions C62_tight_arrow_refuted.

(** A slash within the brackets of a field may be taken for the mark of a context:  a => [b/c]
    writes "[b", and  [/] => x  deletes the slash. *)
Theorem C62_slash_refuted :
  ~ (forall l f1 f2 a b, l = f1 ++ [32%N] ++ arrow ++ [32%N] ++ f2 -> field f1 a -> field f2 b -> ~ has_arrow f1 -> length l <= 131 ->
       process_data_line l = Ok {| lctx := []; sin := a; rctx := []; sout := b |}).
Proof.
  intros H. specialize (H ([91; 97; 93; 32; 61; 62; 32; 91; 98; 47; 99; 93])%N [91; 97; 93]%N [91; 98; 47; 99; 93]%N [97]%N [98; 47; 99]%N eq_refl
    (in_brackets [97]%N) (in_brackets [98; 47; 99]%N)).
  assert (process_data_line [91; 97; 93; 32; 61; 62; 32; 91; 98; 47; 99; 93]%N = Ok {| lctx := []; sin := [97]%N; rctx := []; sout := [98; 47; 99]%N |}) as X.
  { apply H; [|cbn; lia]. intros [a [b E]]. destruct a as [|? [|? [|? [|]]]]; discriminate. }
  discriminate X.
Qed.
Print Assumptions C62_slash_refuted.

(** A rule whose line begins with the only slash makes the program read the byte before the line. *)
Theorem C62_first_slash_refuted :
  ~ (forall l, ~ blanks l -> has_arrow l -> exists r, process_data_line l = Ok r).
Proof.
  intros H. destruct (H [47; 32; 61; 62; 32; 120]%N) as [r E].
  - intros B. inversion B as [|? ? W _]; subst. now apply white_47.
  - now exists [47; 32]%N, [32; 120]%N.
  - discriminate E.
Qed.
Print Assumptions C62_first_slash_refuted.

(**   [a] => "bc" / x __ [y ]   *)
Example context_case :
  let l := [91; 97; 93; 32; 61; 62; 32; 34; 98; 99; 34; 32; 47; 32; 120; 32; 95; 95; 32; 91; 121; 32; 93]%N in
  context_rule l [97]%N [98; 99]%N [120]%N [121; 32]%N /\
  process_data_line l = Ok {| lctx := [120]; sin := [97]; rctx := [121; 32]; sout := [98; 99] |}%N.
Proof.
  cbv zeta. split; [|reflexivity].
  exists [], [91; 97; 93]%N, [32]%N, [32; 34; 98; 99; 34]%N, [32]%N, [32; 120]%N, [32]%N, [95; 95]%N, [32; 91; 121; 32; 93]%N, [].
  assert (white 32) as W by (left; reflexivity).
  split; [reflexivity|]. split; [constructor|]. split; [now repeat constructor|]. split; [now repeat constructor|].
  split; [now repeat constructor|]. split; [constructor|]. split; [apply (in_brackets [97]%N)|].
  split; [apply (an_item [32]%N [34; 98; 99; 34]%N [98; 99]%N); [now repeat constructor|discriminate|apply (in_quotes [98; 99]%N)]|].
  split.
  { apply (an_item [32]%N [120]%N [120]%N); [now repeat constructor|discriminate|]. apply plain.
    - split; [discriminate|]. cbn. unfold white; cbn; lia.
    - intros [v E]. discriminate.
    - intros [v E]. discriminate.
    - discriminate. }
  split; [apply (an_item [32]%N [91; 121; 32; 93]%N [121; 32]%N); [now repeat constructor|discriminate|apply (in_brackets [121; 32]%N)]|].
  split; [intros [a [b E]]; destruct a as [|? [|? [|? [|]]]]; discriminate|].
  split; [discriminate|]. split; [now repeat constructor|].
  split; [cbn; lia|]. split; [cbn; lia|]. split; [cbn; lia|].
  right. exists [32; 120; 32; 95; 95; 32]%N, [121; 32; 93]%N. split; [reflexivity|]. cbn. lia.
Qed.
Example free_case : free_rule [97; 32; 61; 62; 32; 98]%N [97]%N [98]%N.
Proof.
  assert (white 32) as W by (left; reflexivity).
  assert (forall c, ~ white c -> c <> 34%N -> c <> 91%N -> field [c] [c]) as F.
  { intros c V Q K. apply plain.
    - split; [discriminate|]. now split.
    - intros [v E]. injection E as E _. congruence.
    - intros [v E]. injection E as E _. congruence.
    - congruence. }
  exists [], [97]%N, [32]%N, [32; 98]%N, []. split; [reflexivity|]. split; [constructor|]. split; [now repeat constructor|]. split; [constructor|].
  split; [apply F; [unfold white; cbn; lia|lia|lia]|].
  split; [apply (an_item [32]%N [98]%N [98]%N); [now repeat constructor|discriminate|apply F; [unfold white; cbn; lia|lia|lia]]|].
  split; [intros [a [b E]]; destruct a as [|? [|]]; discriminate|]. left. cbn. lia.
Qed.
