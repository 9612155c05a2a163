From Coq Require Import List ZArith NArith Arith Bool String Lia.
From Verif Require Import Base Store_Model Store_Proofs Pad_Model Pad_Spec Pad_Proofs.
Import ListNotations.
Local Open Scope Z_scope.

(** C46: centering gives a string of the requested width, the text between paddings that
    differ by at most one; a longer text is returned whole; whatever the static array held
    before. The program stops for widths from 2000 on, and overruns the array exactly for texts
    of 2000 characters or more. *)
Theorem C46_center : forall desc s len, List.length desc = 2000%nat ->
  match center desc s len with
  | Ok b => len < 2000 /\ (List.length s < 2000)%nat /\ List.length b = 2000%nat /\
      exists r, holds b r /\
        (Z.of_nat (List.length s) <= len -> Z.of_nat (List.length r) = len /\ exists f g, centered s r f g) /\
        (len < Z.of_nat (List.length s) -> r = s)
  | Exit => 2000 <= len
  | Undef => len < 2000 /\ (2000 <= List.length s)%nat
  | NoFuel => False
  end.
Proof.
  intros desc s len L. pose proof (center_cases desc s len L) as H. destruct (center desc s len); try exact H.
  destruct H as (A & B & C & f & g & D & E & F). split; [exact A|]. split; [exact B|]. split; [exact C|].
  exists (blanks f ++ s ++ blanks g). split; [exact D|]. split; intro X.
  - specialize (E X). split; [unfold blanks; rewrite !app_length, !repeat_length; lia|]. exists f, g. split; [reflexivity|lia].
  - destruct (F X) as [-> ->]. cbn. apply app_nil_r.
Qed.
Print Assumptions C46_center.

(** set_pad_n: n blanks, as far as they fit; nothing outside the array is written. *)
Theorem C46_blanks : forall pad n max, 1 <= max <= Z.of_nat (List.length pad) ->
  exists b, set_pad_n pad n max = Ok b /\ holds b (blanks (Z.to_nat (Z.min n (max - 1)))) /\
    List.length b = List.length pad /\ skipn (Z.to_nat max) b = skipn (Z.to_nat max) pad.
Proof.
  intros pad n max H. unfold set_pad_n. set (i := Z.max 0 (Z.min n (max - 1))).
  destruct (pad_blanks pad i max) as (b & E & L & P); [lia|lia|]. rewrite E. cbn [rbind].
  destruct (P i) as (b' & S & A & B & C); [lia|]. exists b'. split; [exact S|]. split; [|auto].
  replace (Z.to_nat (Z.min n (max - 1))) with (Z.to_nat i) by lia. exact A.
Qed.
Print Assumptions C46_blanks.

(** set_pad and set_pad_cent_n: one blank fewer than half of the free width. *)
Theorem C46_half_width : forall width pad s max, 0 <= width -> 1 <= max <= Z.of_nat (List.length pad) ->
  let l := Z.of_nat (List.length s) in
  let k := Z.to_nat (Z.min ((width - l) / 2) (max - 1) - 1) in
  (exists b, set_pad width pad s max = Ok b /\ holds b (blanks k) /\ skipn (Z.to_nat max) b = skipn (Z.to_nat max) pad) /\
  (exists b, set_pad_cent_n width pad l max = Ok b /\ holds b (blanks k) /\ skipn (Z.to_nat max) b = skipn (Z.to_nat max) pad).
Proof.
  intros width pad s max W H l k.
  assert (G : forall len, (0 <= width - l -> len = (width - l) / 2) -> (width < l -> len <= 0) ->
    exists b, (let i := Z.max 0 (Z.min len (max - 1)) in
      rbind (fill pad 0 (Z.to_nat i) 32) (fun b => if 0 <? i then store b (i - 1) 0 else store b 0 0)) = Ok b /\
      holds b (blanks k) /\ skipn (Z.to_nat max) b = skipn (Z.to_nat max) pad).
  { intros len L1 L2. cbn zeta. set (i := Z.max 0 (Z.min len (max - 1))).
    destruct (pad_blanks pad i max) as (b & E & _ & P); [lia|lia|]. rewrite E. cbn [rbind].
    assert (NEG : width < l -> (width - l) / 2 <= -1).
    { intro X. pose proof (Z.div_mod (width - l) 2 ltac:(lia)). pose proof (Z.mod_pos_bound (width - l) 2 ltac:(lia)). lia. }
    destruct (Z.ltb_spec 0 i) as [X|X].
    - destruct (P (i - 1)) as (b' & S & A & B & C); [lia|]. exists b'. split; [exact S|]. split; [|exact B].
      replace k with (Z.to_nat (i - 1)); [exact A|]. unfold k. destruct (Z_lt_ge_dec width l); [specialize (L2 ltac:(assumption)); lia|]. rewrite <- L1 by lia. lia.
    - destruct (P 0) as (b' & S & A & B & C); [lia|]. exists b'. split; [exact S|]. split; [|exact B].
      replace k with (Z.to_nat 0); [exact A|]. unfold k. destruct (Z_lt_ge_dec width l); [specialize (NEG ltac:(assumption)); lia|]. rewrite <- L1 by lia. lia. }
  split.
  - unfold set_pad. fold l. apply G.
    + intro X. destruct (Z.leb_spec l width) as [Y|Y]; [reflexivity|lia].
    + intro X. destruct (Z.leb_spec l width) as [Y|Y]; [lia|]. assert (0 <= (l - width + 1) / 2) by (apply Z.div_pos; lia). lia.
  - unfold set_pad_cent_n. apply G.
    + intro X. rewrite Z.quot_div_nonneg by lia. reflexivity.
    + intro X. replace (width - l) with (- (l - width)) by lia. rewrite Z.quot_opp_l by lia. pose proof (Z.quot_pos (l - width) 2 ltac:(lia) ltac:(lia)). lia.
Qed.
Print Assumptions C46_half_width.

(** So a text printed after the pad is not in the middle of the line. *)
Theorem C46_middle_refuted : ~ forall width pad s max b k, 1 <= max <= Z.of_nat (List.length pad) ->
  Z.of_nat (List.length s) <= width < max -> set_pad width pad s max = Ok b -> holds b (blanks k) ->
  let front := Z.of_nat k in let back := width - front - Z.of_nat (List.length s) in
  -1 <= back - front <= 1.
Proof.
  intro H. specialize (H 10 (repeat 120%N 12) (bytes "ab") 12 _ 3%nat ltac:(cbn; lia) ltac:(cbn; lia) eq_refl (ex_intro _ _ eq_refl)).
  vm_compute in H. destruct H as [_ H]. apply H. reflexivity.
Qed.
Print Assumptions C46_middle_refuted.

(** strncpy_pad: exactly min(len, max-1) characters, those of the text followed by the filler. *)
Theorem C46_copy_pad : forall to from len max chr, 1 <= max <= Z.of_nat (List.length to) ->
  let n := Z.to_nat (Z.min len (max - 1)) in
  exists b r, strncpy_pad to from len max chr = Ok b /\ holds b r /\ List.length r = n /\
    r = firstn n (from ++ repeat chr n) /\ skipn (Z.to_nat max) b = skipn (Z.to_nat max) to.
Proof.
  intros to from len max chr H n. unfold strncpy_pad. fold n.
  destruct (pad_loop_app n [] to from chr 0 eq_refl) as (rest & E & R); [unfold n; lia|]. cbn [app] in E.
  assert (LR : List.length (firstn n (from ++ repeat chr n)) = n) by (rewrite firstn_length, app_length, repeat_length; lia).
  exists (firstn n (from ++ repeat chr n) ++ 0%N :: rest), (firstn n (from ++ repeat chr n)).
  split; [exact E|]. split; [exists rest; reflexivity|]. split; [exact LR|]. split; [reflexivity|].
  rewrite skipn_app, skipn_all2 by (unfold n in *; lia). rewrite LR. cbn [app].
  replace (Z.to_nat max - n)%nat with (S (Z.to_nat max - n - 1)) by (unfold n; lia). rewrite skipn_cons, R, skipn_add. f_equal. unfold n. lia.
Qed.
Print Assumptions C46_copy_pad.

Lemma add_string_text_eq : forall value justify total add, add_string_text value justify total add =
  let t := value ++ add in let l := Z.of_nat (List.length t) in
  if total <? l then (if l <? l - total + 3 then Exit else Ok (bytes "..." ++ skipn (Z.to_nat (l - total + 3)) t))
  else if str_eqb justify (bytes "left") then Ok (t ++ spaces (total - l))
  else if str_eqb justify (bytes "middle") then
    let used := (total - l) / 2 in Ok (spaces used ++ t ++ spaces (total - used - l))
  else if str_eqb justify (bytes "right") then Ok (spaces (total - l) ++ t)
  else Ok [].
Proof.
  intros value justify total add. destruct add as [|c r]; [rewrite app_nil_r|]; reflexivity.
Qed.

(** The columns of asclite's reports have exactly the requested width: the text with blanks on
    the proper side, or its end after three dots; the program stops for a text longer than a
    column of less than three characters. *)
Theorem C46_columns : forall value add justify total, 0 <= total ->
  In justify [bytes "left"; bytes "middle"; bytes "right"] ->
  let t := value ++ add in let l := Z.of_nat (List.length t) in
  match add_string_text value justify total add with
  | Ok r => Z.of_nat (List.length r) = total /\
      (l <= total -> exists f g, r = blanks f ++ t ++ blanks g /\ (justify = bytes "left" -> f = 0%nat) /\
          (justify = bytes "right" -> g = 0%nat) /\ (justify = bytes "middle" -> centered t r f g)) /\
      (total < l -> exists a b, t = a ++ b /\ r = bytes "..." ++ b)
  | Exit => total < l /\ total < 3
  | _ => False
  end.
Proof.
  intros value add justify total T J t l. rewrite add_string_text_eq. cbv zeta. change (value ++ add) with t. change (Z.of_nat (List.length t)) with l. clearbody t.
  destruct (Z.ltb_spec total l) as [L|L].
  - destruct (Z.ltb_spec l (l - total + 3)) as [M|M]; [split; lia|]. split; [|split; [intro X; exfalso; lia|]].
    + rewrite app_length, skipn_length. change (List.length (bytes "...")) with 3%nat. unfold l. lia.
    + intros _. exists (firstn (Z.to_nat (l - total + 3)) t), (skipn (Z.to_nat (l - total + 3)) t). rewrite firstn_skipn. auto.
  - assert (LS : forall n, 0 <= n -> Z.of_nat (List.length (spaces n)) = n) by (intros n N; unfold spaces; rewrite repeat_length; lia).
    destruct J as [<-|[<-|[<-|[]]]].
    + cbn [str_eqb]. change (str_eqb (bytes "left") (bytes "left")) with true. split; [|split; [|intro X; exfalso; lia]].
      * rewrite app_length, Nat2Z.inj_add, LS by lia. fold l. lia.
      * intros _. exists 0%nat, (Z.to_nat (total - l)). split; [reflexivity|]. split; [reflexivity|]. split; discriminate.
    + change (str_eqb (bytes "middle") (bytes "left")) with false. change (str_eqb (bytes "middle") (bytes "middle")) with true. cbn zeta.
      assert (D : 2 * ((total - l) / 2) <= total - l < 2 * ((total - l) / 2) + 2).
      { pose proof (Z.div_mod (total - l) 2 ltac:(lia)). pose proof (Z.mod_pos_bound (total - l) 2 ltac:(lia)). lia. }
      split; [|split; [|intro X; exfalso; lia]].
      * rewrite !app_length, !Nat2Z.inj_add, !LS by lia. fold l. lia.
      * intros _. exists (Z.to_nat ((total - l) / 2)), (Z.to_nat (total - (total - l) / 2 - l)). split; [reflexivity|]. split; [discriminate|]. split; [discriminate|].
        intros _. split; [reflexivity|lia].
    + change (str_eqb (bytes "right") (bytes "left")) with false. change (str_eqb (bytes "right") (bytes "middle")) with false. change (str_eqb (bytes "right") (bytes "right")) with true.
      split; [|split; [|intro X; exfalso; lia]].
      * rewrite app_length, Nat2Z.inj_add, LS by lia. fold l. lia.
      * intros _. exists (Z.to_nat (total - l)), 0%nat. split; [cbn [blanks repeat]; rewrite app_nil_r; reflexivity|]. split; [discriminate|]. split; [reflexivity|discriminate].
Qed.
Print Assumptions C46_columns.

Example center_case : exists b rest, center (repeat 7%N 2000) (bytes "abc") 8 = Ok b /\ b = bytes "  abc   " ++ 0%N :: rest.
Proof. eexists. eexists. split; [vm_compute; reflexivity|]. vm_compute. reflexivity. Qed.
Example columns_case : add_string_text (bytes "word") (bytes "middle") 9 [] = Ok (bytes "  word   ") /\
  add_string_text (bytes "longer") (bytes "left") 5 [] = Ok (bytes "...er") /\ add_string_text (bytes "long") (bytes "right") 2 [] = Exit /\
  add_string_text (bytes "5") (bytes "right") 4 (bytes "%") = Ok (bytes "  5%").
Proof. repeat split. Qed.
Example copy_pad_case : exists b, strncpy_pad (repeat 7%N 8) (bytes "abc") 5 8 46 = Ok b /\ holds b (bytes "abc..").
Proof. eexists. split; [vm_compute; reflexivity|]. eexists. reflexivity. Qed.
