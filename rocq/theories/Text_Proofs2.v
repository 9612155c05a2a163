(** Code points, tokens, lines, word fields. *)
From Coq Require Import List Arith ZArith NArith Bool Lia.
From Verif Require Import Base Text_Model Text_Spec Text_Proofs1.
Import ListNotations.
Local Open Scope N_scope.

(** ** UTF-8 *)

Lemma lo6 b : b < 64 -> low6 (0x80 + b) = b.
Proof.
  intros H. apply N.eqb_eq.
  assert (forallb (fun x => negb (x <? 64) || (low6 (0x80 + x) =? x)) all_bytes = true) as E by (vm_compute; reflexivity).
  pose proof (by_cases _ E b ltac:(lia)) as K. cbv beta in K.
  destruct (N.ltb_spec b 64); [|lia]. exact K.
Qed.
Lemma lo5 b : b < 32 -> N.land (0xC0 + b) 0x1F = b.
Proof.
  intros H. apply N.eqb_eq.
  assert (forallb (fun x => negb (x <? 32) || (N.land (0xC0 + x) 0x1F =? x)) all_bytes = true) as E by (vm_compute; reflexivity).
  pose proof (by_cases _ E b ltac:(lia)) as K. cbv beta in K.
  destruct (N.ltb_spec b 32); [|lia]. exact K.
Qed.
Lemma lo4 b : b < 16 -> N.land (0xE0 + b) 0xF = b.
Proof.
  intros H. apply N.eqb_eq.
  assert (forallb (fun x => negb (x <? 16) || (N.land (0xE0 + x) 0xF =? x)) all_bytes = true) as E by (vm_compute; reflexivity).
  pose proof (by_cases _ E b ltac:(lia)) as K. cbv beta in K.
  destruct (N.ltb_spec b 16); [|lia]. exact K.
Qed.
Lemma lo3 b : b < 8 -> N.land (0xF0 + b) 0x7 = b.
Proof.
  intros H. apply N.eqb_eq.
  assert (forallb (fun x => negb (x <? 8) || (N.land (0xF0 + x) 0x7 =? x)) all_bytes = true) as E by (vm_compute; reflexivity).
  pose proof (by_cases _ E b ltac:(lia)) as K. cbv beta in K.
  destruct (N.ltb_spec b 8); [|lia]. exact K.
Qed.

Lemma decode_utf8 c bs m : utf8 c bs -> get_code_point UTF8 (bs ++ m) = Ok c.
Proof.
  intros H. destruct H as [c Hc|a b Ha Hb Hl|a b c Ha Hb Hc Hl|a b c d Ha Hb Hc Hd Hl Hu];
    change (2 ^ 3) with 8 in *; change (2 ^ 4) with 16 in *; change (2 ^ 5) with 32 in *;
    change (2 ^ 6) with 64 in *; change (2 ^ 7) with 128 in *;
    cbn [app]; unfold get_code_point.
  - rewrite (nbytes_size UTF8 c m 1); [reflexivity|lia|]. cbn [char_size]. lia.
  - rewrite (nbytes_size UTF8 (0xC0 + a) _ 2); [|lia|cbn [char_size]; lia].
    cbn [rbind]. unfold at_off. cbn [skipn rd rbind].
    rewrite lo5, lo6 by assumption. rewrite N.shiftl_mul_pow2. reflexivity.
  - rewrite (nbytes_size UTF8 (0xE0 + a) _ 3); [|lia|cbn [char_size]; lia].
    cbn [rbind]. unfold at_off. cbn [skipn rd rbind].
    rewrite lo4, !lo6 by assumption. rewrite !N.shiftl_mul_pow2. reflexivity.
  - rewrite (nbytes_size UTF8 (0xF0 + a) _ 4); [|lia|cbn [char_size]; lia].
    cbn [rbind]. unfold at_off. cbn [skipn rd rbind].
    rewrite lo3, !lo6 by assumption. rewrite !N.shiftl_mul_pow2. reflexivity.
Qed.

Lemma utf8_is_char c bs : utf8 c bs -> c <> 0 -> is_char UTF8 bs.
Proof.
  intros H H0. destruct H as [c Hc|a b Ha Hb Hl|a b c Ha Hb Hc Hl|a b c d Ha Hb Hc Hd Hl Hu];
    change (2 ^ 3) with 8 in *; change (2 ^ 4) with 16 in *; change (2 ^ 5) with 32 in *;
    change (2 ^ 6) with 64 in *; change (2 ^ 7) with 128 in *;
    (eexists; eexists; split; [reflexivity|split; [cbn [length char_size]; lia|]]);
    repeat constructor; lia.
Qed.

Lemma utf8_len c bs : utf8 c bs -> (length bs <= 4)%nat /\ Forall (fun b => b < 256) bs.
Proof.
  intros H. destruct H; cbn [length]; change (2 ^ 3) with 8 in *; change (2 ^ 4) with 16 in *; change (2 ^ 5) with 32 in *;
    change (2 ^ 6) with 64 in *; change (2 ^ 7) with 128 in *; (split; [lia|]); repeat constructor; lia.
Qed.
Lemma pad10_small bs : Forall (fun b => b < 256) bs -> pad10 bs = bs ++ repeat 0 (10 - length bs).
Proof.
  intros H. unfold pad10. f_equal.
  induction H; [reflexivity|]. cbn [map]. rewrite IHForall, N.mod_small by assumption. reflexivity.
Qed.

Lemma encode_utf8 c : c < 0x20000 ->
  exists bs, utf8 c bs /\ code_point_to_text UTF8 c = Ok (bs ++ repeat 0 (10 - length bs)).
Proof.
  intros Hc. unfold code_point_to_text.
  destruct (N.ltb_spec c 0x80).
  { exists [c]. split; [constructor; change (2 ^ 7) with 128; lia|].
    rewrite pad10_small; [reflexivity|]. repeat constructor. lia. }
  destruct (N.ltb_spec c 0x800).
  { assert (U : utf8 c [192 + c / 64; 128 + c mod 64]).
    { assert (E : c = c / 64 * 2 ^ 6 + c mod 64).
      { change (2 ^ 6) with 64. rewrite (N.div_mod c 64) at 1 by lia. lia. }
      rewrite E at 1. apply utf8_2; [|apply N.mod_lt; lia|rewrite <- E; change (2 ^ 7) with 128; lia].
      apply N.div_lt_upper_bound; [lia|]. change (64 * 2 ^ 5) with 0x800. lia. }
    eexists. split; [exact U|]. rewrite pad10_small; [reflexivity|apply (utf8_len _ _ U)]. }
  destruct (N.ltb_spec c 0x10000).
  { assert (U : utf8 c [224 + c / 4096; 128 + (c / 64) mod 64; 128 + c mod 64]).
    { assert (E : c = c / 4096 * 2 ^ 12 + (c / 64) mod 64 * 2 ^ 6 + c mod 64).
      { change (2 ^ 6) with 64. change (2 ^ 12) with (64 * 64). change 4096 with (64 * 64).
        rewrite <- N.div_div by lia.
        rewrite (N.div_mod c 64) at 1 by lia. rewrite (N.div_mod (c / 64) 64) at 1 by lia. lia. }
      rewrite E at 1. apply utf8_3; try (apply N.mod_lt; lia).
      - apply N.div_lt_upper_bound; [lia|]. change (4096 * 2 ^ 4) with 0x10000. lia.
      - rewrite <- E. change (2 ^ 11) with 0x800. lia. }
    eexists. split; [exact U|]. rewrite pad10_small; [reflexivity|apply (utf8_len _ _ U)]. }
  destruct (N.ltb_spec c 0x20000); [|lia].
  assert (U : utf8 c [240 + c / 262144; 128 + (c / 4096) mod 64; 128 + (c / 64) mod 64; 128 + c mod 64]).
  { assert (E : c = c / 262144 * 2 ^ 18 + (c / 4096) mod 64 * 2 ^ 12 + (c / 64) mod 64 * 2 ^ 6 + c mod 64).
    { change (2 ^ 6) with 64. change (2 ^ 12) with (64 * 64). change (2 ^ 18) with (64 * 64 * 64).
      change 262144 with (64 * (64 * 64)). change 4096 with (64 * 64).
      rewrite <- !N.div_div by lia.
      rewrite (N.div_mod c 64) at 1 by lia. rewrite (N.div_mod (c / 64) 64) at 1 by lia.
      rewrite (N.div_mod (c / 64 / 64) 64) at 1 by lia. lia. }
    rewrite E at 1. apply utf8_4; try (apply N.mod_lt; lia).
    - apply N.div_lt_upper_bound; [lia|]. change (262144 * 2 ^ 3) with 0x200000. lia.
    - rewrite <- E. change (2 ^ 16) with 0x10000. lia.
    - rewrite <- E. lia. }
  eexists. split; [exact U|]. rewrite pad10_small; [reflexivity|apply (utf8_len _ _ U)].
Qed.

(** ** Tokens *)
Lemma copy_char_ok cap len c : forall out m, (length out + length c <= len)%nat -> (len <= cap)%nat ->
  copy_char cap len (length c) out (c ++ m) = Ok (Copied (out ++ c) m).
Proof.
  induction c as [|b c IH]; intros out m H1 H2; cbn [length copy_char app].
  - rewrite app_nil_r. reflexivity.
  - cbn [length] in H1. destruct (Nat.ltb_spec len (S (length out))); [lia|].
    cbn [rd rbind]. unfold put. destruct (Nat.ltb_spec (length out) cap); [|lia]. cbn [rbind tl].
    rewrite IH; [rewrite <- app_assoc; reflexivity| |assumption]. rewrite app_length. cbn. lia.
Qed.
Lemma copy_char_full cap len c : forall out m, (len < length out + length c)%nat -> (length out <= len)%nat ->
  (len <= cap)%nat ->
  copy_char cap len (length c) out (c ++ m) = Ok (Full (skipn (len - length out) (c ++ m))).
Proof.
  induction c as [|b c IH]; intros out m H1 H2 H3; cbn [length] in *; [lia|].
  cbn [copy_char]. destruct (Nat.ltb_spec len (S (length out))).
  - replace (len - length out)%nat with 0%nat by lia. reflexivity.
  - cbn [app rd rbind]. unfold put. destruct (Nat.ltb_spec (length out) cap); [|lia]. cbn [rbind tl].
    rewrite IH; [|rewrite app_length; cbn; lia|rewrite app_length; cbn; lia|assumption].
    rewrite app_length. cbn [length].
    replace (len - length out)%nat with (S (len - (length out + 1))) by lia. reflexivity.
Qed.

Definition spc (c : list byte) : bool := match c with [b] => isspace b | _ => false end.
Lemma spc_ok c : spc c = true <-> space_char c.
Proof.
  unfold spc, space_char, space. destruct c as [|b [|b' c]].
  - split; [discriminate|]. intros (b & E & _). discriminate.
  - unfold isspace. rewrite orb_true_iff, andb_true_iff, N.eqb_eq, !N.leb_le. split.
    + intros H. exists b. split; [reflexivity|]. lia.
    + intros (b' & E & H). injection E as <-. lia.
  - split; [discriminate|]. intros (x & E & _). discriminate.
Qed.

Lemma isspace_lt b : isspace b = true -> b < 128.
Proof. unfold isspace. rewrite orb_true_iff, andb_true_iff, N.eqb_eq, !N.leb_le. lia. Qed.

Lemma vtisspace_char e c m : is_char e c -> vtisspace e (c ++ m) = Ok (spc c).
Proof.
  intros H. unfold vtisspace. rewrite nbytes_char by exact H. cbn [rbind].
  destruct H as (l & r & -> & Hs & Hf). inversion Hf; subst.
  destruct r as [|b r].
  - cbn [length Nat.eqb app rd rbind spc]. rewrite land80 by lia.
    destruct (N.ltb_spec l 128); cbn [negb]; [reflexivity|].
    destruct (isspace l) eqn:E; [|reflexivity]. apply isspace_lt in E. lia.
  - cbn [length spc] in *. destruct r as [|b2 r]; cbn [length Nat.eqb]; [reflexivity|].
    cbn [app rd rbind]. rewrite land80 by lia.
    destruct (N.ltb_spec l 128); [|reflexivity].
    exfalso. cbn [length] in Hs. destruct e; cbn [char_size] in Hs; lia.
Qed.
Lemma nbytes_0 e m : nbytes e (0 :: m) = Ok 1%nat.
Proof. destruct e; reflexivity. Qed.
Lemma vtisspace_0 e m : vtisspace e (0 :: m) = Ok false.
Proof. unfold vtisspace. rewrite nbytes_0. reflexivity. Qed.

Definition skippable (slash : bool) (c : list byte) : bool :=
  spc c || (slash && match c with [b] => b =? 47 | _ => false end).

Lemma lead_single e c m b k : is_char e c -> k < 128 ->
  exists l, rd (c ++ m) = Ok l /\ ((l =? k) = match c with [x] => x =? k | _ => false end)
            /\ l <> 0 /\ (b = l -> True).
Proof.
  intros (l & r & -> & Hs & Hf) Hk. exists l. inversion Hf; subst. cbn [app rd].
  split; [reflexivity|]. split; [|split; [lia|auto]].
  destruct r as [|b2 r]; [reflexivity|].
  destruct (N.eqb_spec l k); [|reflexivity]. exfalso. subst. cbn [length] in Hs.
  destruct e; cbn [char_size] in Hs; lia.
Qed.

Lemma skip_ok e slash ws : forall fuel cs j, Forall (is_char e) (ws ++ cs) ->
  Forall (fun c => skippable slash c = true) ws ->
  match cs with [] => True | c :: _ => skippable slash c = false end ->
  (length ws < fuel)%nat ->
  skip_loop fuel e slash (concat (ws ++ cs) ++ 0 :: j) = Ok (concat cs ++ 0 :: j).
Proof.
  induction ws as [|w ws IH]; intros [|f] cs j Hc Hw Hn Hf; try (cbn in Hf; lia); cbn [app] in *.
  - cbn [skip_loop]. destruct cs as [|c cs].
    + cbn [concat app]. rewrite vtisspace_0. cbn [rbind rd]. destruct slash; reflexivity.
    + inversion Hc; subst. cbn [concat]. rewrite <- app_assoc. rewrite vtisspace_char by assumption.
      cbn [rbind]. destruct (lead_single e c (concat cs ++ 0 :: j) 0 47 H1 ltac:(lia)) as (l & -> & E47 & _).
      cbn [rbind]. rewrite E47. unfold skippable in Hn. rewrite Hn. reflexivity.
  - inversion Hc; inversion Hw; subst. cbn [skip_loop concat]. rewrite <- app_assoc.
    rewrite vtisspace_char by assumption. cbn [rbind].
    destruct (lead_single e w (concat (ws ++ cs) ++ 0 :: j) 0 47 H1 ltac:(lia)) as (l & -> & E47 & _).
    cbn [rbind]. rewrite E47. unfold skippable in H5. rewrite H5.
    rewrite nbytes_char by assumption. cbn [rbind]. rewrite adv_app. cbn [rbind].
    apply IH; try assumption. cbn in Hf. lia.
Qed.

Lemma full_split (c : list byte) (m : mem) (len lo : nat) : (lo + length c <= len)%nat ->
  skipn (len - (lo + length c)) m = skipn (len - lo) (c ++ m).
Proof.
  intros H. replace (len - lo)%nat with (length c + (len - (lo + length c)))%nat by lia.
  rewrite skipn_app, (skipn_all2 c) by lia. cbn [app].
  replace (length c + (len - (lo + length c)) - length c)%nat with (len - (lo + length c))%nat by lia.
  reflexivity.
Qed.

Lemma word_loop_ok e cap len w : forall fuel c out rest j,
  Forall (is_char e) (c :: w ++ rest) -> Forall (fun c => spc c = false) w ->
  match rest with [] => True | c :: _ => spc c = true end ->
  (length w < fuel)%nat -> (length out <= len)%nat -> (len <= cap)%nat ->
  word_loop fuel e cap len out (concat (c :: w ++ rest) ++ 0 :: j) =
  Ok (if Nat.leb (length out + length (concat (c :: w))) len
      then Copied (out ++ concat (c :: w)) (concat rest ++ 0 :: j)
      else Full (skipn (len - length out) (concat (c :: w ++ rest) ++ 0 :: j))).
Proof.
  induction w as [|d w IH]; intros [|f] c out rest j Hc Hw Hr Hf Ho Hl; try (cbn in Hf; lia); cbn [app] in *;
    inversion Hc as [|? ? Hc1 Hc2]; subst; cbn [word_loop];
    cbn [concat]; rewrite <- app_assoc; rewrite nbytes_char by assumption; cbn [rbind].
  - destruct (le_lt_dec (length out + length c) len) as [L|L].
    + rewrite copy_char_ok by assumption. cbn [rbind].
      rewrite app_nil_r. destruct (Nat.leb_spec (length out + length c) len); [|lia].
      destruct rest as [|d rest].
      * cbn [concat app rd rbind]. reflexivity.
      * inversion Hc2; subst. cbn [concat]. rewrite <- app_assoc.
        destruct (lead_single e d (concat rest ++ 0 :: j) 0 0 H2 ltac:(lia)) as (l & -> & _ & Hl0 & _).
        cbn [rbind]. unfold end_of_text. destruct (N.eqb_spec l 0); [contradiction|].
        rewrite vtisspace_char by assumption. cbn [rbind]. rewrite Hr. reflexivity.
    + rewrite copy_char_full by assumption. cbn [rbind].
      rewrite app_nil_r. destruct (Nat.leb_spec (length out + length c) len); [lia|]. reflexivity.
  - inversion Hc2; subst. inversion Hw as [|? ? Hw1 Hw2]; subst.
    destruct (le_lt_dec (length out + length c) len) as [L|L].
    + rewrite copy_char_ok by assumption. cbn [rbind concat]. rewrite <- app_assoc.
      destruct (lead_single e d (concat (w ++ rest) ++ 0 :: j) 0 0 H1 ltac:(lia)) as (l & -> & _ & Hl0 & _).
      cbn [rbind]. unfold end_of_text. destruct (N.eqb_spec l 0); [contradiction|].
      rewrite vtisspace_char by assumption. cbn [rbind]. rewrite Hw1.
      specialize (IH f d (out ++ c) rest j). cbn [concat] in IH. rewrite <- app_assoc in IH.
      rewrite IH; try assumption; [|cbn in Hf; lia|rewrite app_length; lia].
      rewrite !app_length.
      destruct (Nat.leb_spec (length out + length c + (length d + length (concat w))) len),
        (Nat.leb_spec (length out + (length c + (length d + length (concat w)))) len); try lia.
      * f_equal. f_equal. rewrite <- !app_assoc. reflexivity.
      * f_equal. f_equal. apply full_split. exact L.
    + rewrite copy_char_full by assumption. cbn [rbind].
      rewrite !app_length.
      match goal with |- context [Nat.leb ?x ?y] => destruct (Nat.leb_spec x y); [lia|] end.
      reflexivity.
Qed.

Lemma depth_app p q : depth (p ++ q) = (depth p + depth q)%Z.
Proof. induction p as [|c p IH]; cbn [app depth]; [reflexivity|]. rewrite IH. lia. Qed.
Definition dstep (c : list byte) : Z :=
  match c with [b] => if (b =? 123)%N then 1 else if (b =? 125)%N then -1 else 0 | _ => 0 end%Z.
Lemma depth_cons c cs : depth (c :: cs) = (dstep c + depth cs)%Z.
Proof. reflexivity. Qed.

Lemma cnt_step (c : list byte) (cnt : Z) :
  (if match c with [x] => x =? 125 | _ => false end
   then ((if match c with [x] => (x =? 123)%N | _ => false end then (cnt + 1)%Z else cnt) - 1)%Z
   else if match c with [x] => (x =? 123)%N | _ => false end then (cnt + 1)%Z else cnt) = (cnt + dstep c)%Z.
Proof.
  unfold dstep. destruct c as [|x0 [|x1 c]]; [lia| |lia].
  destruct (N.eqb_spec x0 123) as [->|]; [cbn; lia|]. destruct (x0 =? 125); lia.
Qed.

Lemma alt_loop_ok e cap len w : forall fuel c cnt out rest j,
  Forall (is_char e) (c :: w ++ rest) ->
  (forall p q, w = p ++ q -> q <> [] -> (0 < cnt + depth (c :: p))%Z) ->
  ((cnt + depth (c :: w) <= 0)%Z \/ rest = []) ->
  (length w < fuel)%nat -> (length out <= len)%nat -> (len <= cap)%nat ->
  alt_loop fuel e cap len cnt out (concat (c :: w ++ rest) ++ 0 :: j) =
  Ok (if Nat.leb (length out + length (concat (c :: w))) len
      then Copied ((cnt + depth (c :: w))%Z, out ++ concat (c :: w)) (concat rest ++ 0 :: j)
      else Full (skipn (len - length out) (concat (c :: w ++ rest) ++ 0 :: j))).
Proof.
  induction w as [|d w IH]; intros [|f] c cnt out rest j Hc Hp Hr Hf Ho Hl; try (cbn in Hf; lia); cbn [app] in *;
    inversion Hc as [|? ? Hc1 Hc2]; subst; cbn [alt_loop];
    cbn [concat]; rewrite <- app_assoc; rewrite nbytes_char by assumption; cbn [rbind];
    match goal with |- context [rd (c ++ ?m)] =>
      destruct (lead_single e c m 0 123 Hc1 ltac:(lia)) as (l & El & E123 & Hl0 & _);
      destruct (lead_single e c m 0 125 Hc1 ltac:(lia)) as (l' & El' & E125 & _);
      assert (l' = l) by congruence; subst l'; rewrite El end; cbn [rbind];
    rewrite E123, E125, cnt_step.
  - destruct (le_lt_dec (length out + length c) len) as [L|L].
    + rewrite copy_char_ok by assumption. cbn [rbind].
      rewrite app_nil_r. destruct (Nat.leb_spec (length out + length c) len); [|lia].
      rewrite depth_cons in *. cbn [depth] in *. rewrite Z.add_0_r in *.
      destruct rest as [|d rest].
      * cbn [concat app rd rbind]. reflexivity.
      * inversion Hc2; subst. cbn [concat]. rewrite <- app_assoc.
        destruct (lead_single e d (concat rest ++ 0 :: j) 0 0 H2 ltac:(lia)) as (l2 & -> & _ & Hl2 & _).
        cbn [rbind]. unfold end_of_text. destruct (N.eqb_spec l2 0); [contradiction|]. cbn [negb andb].
        destruct Hr as [Hr|Hr]; [|discriminate].
        destruct (Z.ltb_spec 0 (cnt + dstep c)); [lia|]. reflexivity.
    + rewrite copy_char_full by assumption. cbn [rbind].
      rewrite app_nil_r. destruct (Nat.leb_spec (length out + length c) len); [lia|]. reflexivity.
  - inversion Hc2; subst.
    destruct (le_lt_dec (length out + length c) len) as [L|L].
    + rewrite copy_char_ok by assumption. cbn [rbind concat]. rewrite <- app_assoc.
      destruct (lead_single e d (concat (w ++ rest) ++ 0 :: j) 0 0 H1 ltac:(lia)) as (l2 & -> & _ & Hl2 & _).
      cbn [rbind]. unfold end_of_text. destruct (N.eqb_spec l2 0); [contradiction|]. cbn [negb andb].
      assert (0 < cnt + dstep c)%Z.
      { specialize (Hp [] (d :: w) eq_refl ltac:(discriminate)). rewrite depth_cons in Hp. cbn [depth] in Hp. lia. }
      destruct (Z.ltb_spec 0 (cnt + dstep c)); [|lia].
      specialize (IH f d (cnt + dstep c)%Z (out ++ c) rest j). cbn [concat] in IH. rewrite <- app_assoc in IH.
      rewrite IH; try assumption.
      * rewrite !app_length, !depth_cons.
        destruct (Nat.leb_spec (length out + length c + (length d + length (concat w))) len),
          (Nat.leb_spec (length out + (length c + (length d + length (concat w)))) len); try lia.
        -- f_equal. f_equal. f_equal; [lia|rewrite <- !app_assoc; reflexivity].
        -- f_equal. f_equal. apply full_split. exact L.
      * intros p q -> Hq. specialize (Hp (d :: p) q eq_refl Hq). rewrite depth_cons in Hp. lia.
      * destruct Hr as [Hr|Hr]; [left|right; exact Hr]. rewrite depth_cons in Hr. lia.
      * cbn in Hf. lia.
      * rewrite app_length. lia.
    + rewrite copy_char_full by assumption. cbn [rbind].
      rewrite !app_length.
      match goal with |- context [Nat.leb ?x ?y] => destruct (Nat.leb_spec x y); [lia|] end.
      reflexivity.
Qed.
