From Coq Require Import List ZArith NArith Arith Bool String Lia.
From Verif Require Import Base Store_Model Store_Proofs Pad_Model Pad_Spec.
Import ListNotations.
Local Open Scope res_scope.
Local Open Scope Z_scope.

Lemma set_nth_app : forall p x q c, set_nth (p ++ x :: q) (List.length p) c = Some (p ++ c :: q).
Proof. induction p as [|y p IH]; intros x q c; cbn [app List.length set_nth]; [reflexivity|]. rewrite IH. reflexivity. Qed.
Lemma set_nth_out : forall p i c, (List.length p <= i)%nat -> set_nth p i c = None.
Proof.
  induction p as [|y p IH]; intros i c H; [reflexivity|]. destruct i as [|i]; cbn [List.length set_nth] in *; [lia|]. rewrite IH by lia. reflexivity.
Qed.
Lemma store_app : forall p q i c, i = Z.of_nat (List.length p) -> store (p ++ q) i c =
  match q with [] => Undef | _ :: r => Ok (p ++ c :: r) end.
Proof.
  intros p q i c ->. unfold store. destruct (Z.ltb_spec (Z.of_nat (List.length p)) 0) as [L|_]; [lia|]. rewrite Nat2Z.id.
  destruct q as [|x q]; [rewrite app_nil_r, set_nth_out by lia; reflexivity|]. rewrite set_nth_app. reflexivity.
Qed.
Lemma fill_app : forall n p q i c, i = Z.of_nat (List.length p) -> fill (p ++ q) i n c =
  if (n <=? List.length q)%nat then Ok (p ++ repeat c n ++ skipn n q) else Undef.
Proof.
  induction n as [|n IH]; intros p q i c E; cbn [fill]; [reflexivity|]. rewrite store_app by exact E. destruct q as [|x q]; [reflexivity|].
  cbn [rbind List.length Nat.leb skipn repeat]. replace (p ++ c :: q) with ((p ++ [c]) ++ q) by (rewrite <- app_assoc; reflexivity).
  rewrite IH by (rewrite app_length; cbn [List.length]; lia). destruct (n <=? List.length q)%nat; [|reflexivity]. rewrite <- app_assoc. reflexivity.
Qed.
Lemma copy_app : forall s p q i, i = Z.of_nat (List.length p) -> copy (p ++ q) i s =
  if (List.length s <=? List.length q)%nat then Ok (p ++ s ++ skipn (List.length s) q) else Undef.
Proof.
  induction s as [|c s IH]; intros p q i E; cbn [copy]; [reflexivity|]. rewrite store_app by exact E. destruct q as [|x q]; [reflexivity|].
  cbn [rbind List.length Nat.leb skipn]. replace (p ++ c :: q) with ((p ++ [c]) ++ q) by (rewrite <- app_assoc; reflexivity).
  rewrite IH by (rewrite app_length; cbn [List.length]; lia). destruct (List.length s <=? List.length q)%nat; [|reflexivity]. rewrite <- app_assoc. reflexivity.
Qed.
Lemma skipn_add : forall A m n (l : list A), skipn n (skipn m l) = skipn (m + n) l.
Proof. induction m as [|m IH]; intros n l; [reflexivity|]. destruct l as [|x l]; [rewrite !skipn_nil; reflexivity|]. apply IH. Qed.

Lemma center_cases : forall desc s len, List.length desc = 2000%nat ->
  match center desc s len with
  | Ok b => len < 2000 /\ (List.length s < 2000)%nat /\ List.length b = 2000%nat /\
      exists f g, holds b (blanks f ++ s ++ blanks g) /\
        (Z.of_nat (List.length s) <= len -> (f <= g <= S f)%nat /\ Z.of_nat (f + List.length s + g) = len) /\
        (len < Z.of_nat (List.length s) -> f = 0%nat /\ g = 0%nat)
  | Exit => 2000 <= len
  | Undef => len < 2000 /\ (2000 <= List.length s)%nat
  | NoFuel => False
  end.
Proof.
  intros desc s len LD. unfold center. destruct (Z.leb_spec 2000 len) as [L|L]; [exact L|].
  set (il := Z.of_nat (List.length s)). set (ft := Z.quot (len - il) 2). set (bk := len - (il + ft)).
  set (f := Z.to_nat ft). set (g := Z.to_nat bk).
  assert (FT : (il <= len -> 0 <= ft /\ 2 * ft <= len - il < 2 * ft + 2) /\ (len < il -> ft <= 0 /\ bk <= 0)).
  { unfold bk, ft. split; intro H.
    - rewrite Z.quot_div_nonneg by lia. pose proof (Z.div_mod (len - il) 2 ltac:(lia)). pose proof (Z.mod_pos_bound (len - il) 2 ltac:(lia)). lia.
    - replace (len - il) with (- (il - len)) by lia. rewrite Z.quot_opp_l by lia. rewrite Z.quot_div_nonneg by lia.
      pose proof (Z.div_mod (il - len) 2 ltac:(lia)). pose proof (Z.mod_pos_bound (il - len) 2 ltac:(lia)). lia. }
  destruct FT as [F1 F2].
  assert (LF : (f < 2000)%nat) by (unfold f; destruct (Z_le_gt_dec il len); [specialize (F1 ltac:(assumption))|specialize (F2 ltac:(lia))]; lia).
  change desc with ([] ++ desc) at 1. rewrite fill_app by reflexivity. rewrite LD.
  destruct (Nat.leb_spec f 2000) as [_|X]; [|lia]. cbn [rbind app].
  rewrite copy_app by (rewrite repeat_length; unfold f; lia). rewrite skipn_length, LD.
  destruct (Nat.leb_spec (List.length s) (2000 - f)) as [S1|S1]; cbn [rbind].
  2: { split; [exact L|]. destruct (Z_le_gt_dec il len) as [X|X]; [specialize (F1 X); unfold f in S1; lia|]. specialize (F2 ltac:(lia)). unfold f in S1. lia. }
  rewrite skipn_add, app_assoc. rewrite fill_app by (rewrite app_length, repeat_length; unfold f, il; lia). rewrite skipn_length, LD.
  destruct (Nat.leb_spec g (2000 - (f + List.length s))) as [G1|G1].
  2: { exfalso. destruct (Z_le_gt_dec il len) as [X|X]; [specialize (F1 X); unfold g, f, bk, il in *; lia|]. specialize (F2 ltac:(lia)). unfold g in G1. lia. }
  cbn [rbind]. rewrite skipn_add, app_assoc. rewrite store_app.
  2: { rewrite !app_length, !repeat_length. unfold f, g, il. lia. }
  destruct (skipn (f + List.length s + g) desc) as [|x q] eqn:Q.
  - assert (Z0 : List.length (skipn (f + List.length s + g) desc) = 0%nat) by (rewrite Q; reflexivity). rewrite skipn_length, LD in Z0.
    split; [exact L|]. destruct (Z_le_gt_dec il len) as [X|X]; [specialize (F1 X); unfold g, f, bk, il in *; lia|]. specialize (F2 ltac:(lia)). unfold g, f in Z0. lia.
  - assert (Z0 : List.length (skipn (f + List.length s + g) desc) = S (List.length q)) by (rewrite Q; reflexivity). rewrite skipn_length, LD in Z0.
    split; [exact L|]. split; [lia|]. split; [rewrite !app_length, !repeat_length; cbn [List.length]; lia|].
    exists f, g. split; [exists q; unfold blanks; rewrite <- !app_assoc; reflexivity|]. split; intro H.
    + specialize (F1 H). unfold f, g, bk, il in *. lia.
    + specialize (F2 H). unfold f, g. lia.
Qed.

(** Storing the final NUL somewhere. *)
Lemma store_nth : forall b i c, 0 <= i < Z.of_nat (List.length b) -> store b i c = Ok (firstn (Z.to_nat i) b ++ c :: skipn (S (Z.to_nat i)) b).
Proof.
  intros b i c H. rewrite <- (firstn_skipn (Z.to_nat i) b) at 1. rewrite store_app by (rewrite firstn_length; lia).
  destruct (skipn (Z.to_nat i) b) as [|x r] eqn:Q.
  - assert (X : List.length (skipn (Z.to_nat i) b) = 0%nat) by (rewrite Q; reflexivity). rewrite skipn_length in X. lia.
  - replace (S (Z.to_nat i)) with (Z.to_nat i + 1)%nat by lia. rewrite <- skipn_add, Q. reflexivity.
Qed.
Lemma firstn_repeat : forall A (c : A) n k l, (n <= k)%nat -> firstn n (repeat c k ++ l) = repeat c n.
Proof. intros A c. induction n as [|n IH]; intros k l H; [reflexivity|]. destruct k as [|k]; [lia|]. cbn [repeat app firstn]. rewrite IH by lia. reflexivity. Qed.

Lemma pad_blanks : forall pad i max, 0 <= i <= max - 1 -> max <= Z.of_nat (List.length pad) ->
  exists b, fill pad 0 (Z.to_nat i) 32 = Ok b /\ List.length b = List.length pad /\
    forall k, 0 <= k <= i -> exists b', store b k 0 = Ok b' /\ holds b' (blanks (Z.to_nat k)) /\ skipn (Z.to_nat max) b' = skipn (Z.to_nat max) pad /\ List.length b' = List.length pad.
Proof.
  intros pad i max H L. change pad with ([] ++ pad) at 1. rewrite fill_app by reflexivity.
  destruct (Nat.leb_spec (Z.to_nat i) (List.length pad)) as [X|X]; [|lia]. cbn [app]. eexists. split; [reflexivity|].
  assert (LB : List.length (repeat 32%N (Z.to_nat i) ++ skipn (Z.to_nat i) pad) = List.length pad) by (rewrite app_length, repeat_length, skipn_length; lia).
  split; [exact LB|]. intros k K. rewrite store_nth by (rewrite LB; lia). eexists. split; [reflexivity|]. split; [|split].
  - exists (skipn (S (Z.to_nat k)) (repeat 32%N (Z.to_nat i) ++ skipn (Z.to_nat i) pad)). rewrite firstn_repeat by lia. reflexivity.
  - rewrite firstn_repeat by lia. rewrite skipn_app, repeat_length, skipn_all2 by (rewrite repeat_length; lia). cbn [app].
    replace (Z.to_nat max - Z.to_nat k)%nat with (S (Z.to_nat max - Z.to_nat k - 1)) by lia. rewrite skipn_cons.
    rewrite skipn_add, skipn_app, skipn_all2 by (rewrite repeat_length; lia). rewrite repeat_length, skipn_add. cbn [app]. f_equal. lia.
  - rewrite app_length. cbn [List.length]. rewrite firstn_length, skipn_length, LB. lia.
Qed.

Lemma pad_loop_app : forall n p q from chr i, i = Z.of_nat (List.length p) -> (n < List.length q)%nat ->
  exists rest, pad_loop (p ++ q) i from n chr = Ok (p ++ firstn n (from ++ repeat chr n) ++ 0%N :: rest) /\ rest = skipn (S n) q.
Proof.
  induction n as [|n IH]; intros p q from chr i E L; cbn [pad_loop].
  - rewrite store_app by exact E. destruct q as [|x q]; [cbn in L; lia|]. exists q. auto.
  - destruct q as [|x q]; [cbn in L; lia|]. cbn [List.length] in L.
    assert (G : forall c fr, exists rest, (let* b1 := store (p ++ x :: q) i c in pad_loop b1 (i + 1) fr n chr) = Ok (p ++ c :: firstn n (fr ++ repeat chr n) ++ 0%N :: rest) /\ rest = skipn (S (S n)) (x :: q)).
    { intros c fr. rewrite store_app by exact E. cbn [rbind]. replace (p ++ c :: q) with ((p ++ [c]) ++ q) by (rewrite <- app_assoc; reflexivity).
      destruct (IH (p ++ [c]) q fr chr (i + 1)) as (rest & R & Q); [rewrite app_length; cbn [List.length]; lia|lia|].
      exists rest. rewrite R. rewrite <- app_assoc. split; [reflexivity|exact Q]. }
    destruct from as [|c from].
    + destruct (G chr []) as (rest & R & Q). exists rest. rewrite R. split; [reflexivity|exact Q].
    + destruct (G c from) as (rest & R & Q). exists rest. rewrite R. split; [|exact Q]. cbn [app firstn]. f_equal. f_equal. f_equal. f_equal.
      clear. rewrite !firstn_app. f_equal. rewrite <- (app_nil_r (repeat chr (S n))), <- (app_nil_r (repeat chr n)), !firstn_repeat by lia. reflexivity.
Qed.
