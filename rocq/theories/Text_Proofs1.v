(** Characters, comparison, escapes, code points. *)
From Coq Require Import List Arith ZArith NArith Bool Lia.
From Verif Require Import Base Text_Model Text_Spec.
Import ListNotations.
Local Open Scope N_scope.

Definition all_bytes := map N.of_nat (seq 0 256).
Lemma in_all_bytes b : b < 256 -> In b all_bytes.
Proof.
  intros H. apply in_map_iff. exists (N.to_nat b). split; [lia|]. apply in_seq. lia.
Qed.
Lemma by_cases (P : N -> bool) : forallb P all_bytes = true -> forall b, b < 256 -> P b = true.
Proof. intros H b Hb. exact (proj1 (forallb_forall P all_bytes) H b (in_all_bytes b Hb)). Qed.

Lemma land80 b : b < 256 -> (N.land b 0x80 =? 0) = (b <? 128).
Proof.
  intros H. apply Bool.eqb_prop.
  apply (by_cases (fun b => Bool.eqb (N.land b 0x80 =? 0) (b <? 128))); [vm_compute; reflexivity|exact H].
Qed.
Definition utf8_size (p : N) : nat :=
  if N.land p 0x80 =? 0 then 1%nat
  else if N.land p 0xE0 =? 0xC0 then 2%nat
  else if N.land p 0xF0 =? 0xE0 then 3%nat
  else if N.land p 0xF8 =? 0xF0 then 4%nat
  else if N.land p 0xFC =? 0xF8 then 5%nat
  else if N.land p 0xFE =? 0xFC then 6%nat else 0%nat.
Lemma utf8_size_ok b : b < 256 -> utf8_size b =
  if b <? 128 then 1%nat else if b <? 192 then 0%nat else if b <? 224 then 2%nat
  else if b <? 240 then 3%nat else if b <? 248 then 4%nat else if b <? 252 then 5%nat
  else if b <? 254 then 6%nat else 0%nat.
Proof.
  intros H. apply Nat.eqb_eq.
  apply (by_cases (fun b => Nat.eqb (utf8_size b) (if b <? 128 then 1%nat else if b <? 192 then 0%nat else if b <? 224 then 2%nat
  else if b <? 240 then 3%nat else if b <? 248 then 4%nat else if b <? 252 then 5%nat
  else if b <? 254 then 6%nat else 0%nat))); [vm_compute; reflexivity|exact H].
Qed.
Lemma nbytes_utf8 b m : nbytes UTF8 (b :: m) = match utf8_size b with O => Exit | S k => Ok (S k) end.
Proof.
  unfold nbytes, utf8_size. cbn [rd rbind].
  repeat match goal with |- context [if ?x then _ else _] => destruct x end; reflexivity.
Qed.

Lemma nbytes_size e b m k : b < 256 -> char_size e b k -> nbytes e (b :: m) = Ok k.
Proof.
  intros Hb Hs. destruct e; cbn [char_size] in Hs.
  - subst k. reflexivity.
  - subst k. reflexivity.
  - unfold nbytes. cbn [rd rbind]. rewrite land80 by exact Hb.
    destruct Hs as [[? ->]|[? ->]]; destruct (N.ltb_spec b 128); try reflexivity; lia.
  - rewrite nbytes_utf8, utf8_size_ok by exact Hb.
    repeat match goal with |- context [?x <? ?y] => destruct (N.ltb_spec x y) end;
      destruct Hs as [[? ->]|[[? ->]|[[? ->]|[[? ->]|[[? ->]|[? ->]]]]]]; try reflexivity; lia.
Qed.

Lemma nbytes_char e c m : is_char e c -> nbytes e (c ++ m) = Ok (length c).
Proof.
  intros (l & r & -> & Hs & Hf). cbn [app]. apply nbytes_size; [|exact Hs].
  inversion Hf; subst. lia.
Qed.
Lemma char_nonempty e c : is_char e c -> c <> [].
Proof. intros (l & r & -> & _). discriminate. Qed.
Lemma char_len_pos e c : is_char e c -> (1 <= length c)%nat.
Proof. intros (l & r & -> & _). cbn. lia. Qed.
Lemma char_size_fun e b j k : char_size e b j -> char_size e b k -> j = k.
Proof. destruct e; cbn [char_size]; intros; lia. Qed.
Lemma chars_no0 e cs : Forall (is_char e) cs -> ~ In 0 (concat cs).
Proof.
  intros H Hin. apply in_concat in Hin as (c & Hc & H0).
  rewrite Forall_forall in H. destruct (H c Hc) as (l & r & -> & _ & Hf).
  rewrite Forall_forall in Hf. specialize (Hf 0 H0). lia.
Qed.

(** characters form a prefix code *)
Lemma char_prefix e c d s t : is_char e c -> is_char e d -> c ++ s = d ++ t -> c = d /\ s = t.
Proof.
  intros (l & r & Ec & Hs & _) (l2 & r2 & Ed & Hs2 & _) E.
  assert (l = l2) by (subst c d; cbn in E; congruence). subst l2.
  assert (El : length c = length d) by (eapply char_size_fun; eassumption).
  clear Ec Ed Hs Hs2. revert d E El. clear. induction c as [|x c IH]; intros [|y d] E El; cbn in *;
    try discriminate; [auto|].
  injection E as -> E. destruct (IH d E) as [-> ->]; [congruence|]. auto.
Qed.
Lemma chars_inj e cs : forall ds, Forall (is_char e) cs -> Forall (is_char e) ds ->
  concat cs = concat ds -> cs = ds.
Proof.
  induction cs as [|c cs IH]; intros [|d ds] Hc Hd E; cbn in E; [reflexivity| | |].
  - inversion Hd; subst. apply char_nonempty in H1. destruct d; [congruence|discriminate].
  - inversion Hc; subst. apply char_nonempty in H1. destruct c; [congruence|discriminate].
  - inversion Hc; inversion Hd; subst. destruct (char_prefix e c d _ _ H1 H5 E) as [-> E2].
    f_equal. apply IH; assumption.
Qed.

(** ** Orders given by a three-valued comparison *)
Definition good {A : Type} (cmp : A -> A -> Z) (P : A -> Prop) : Prop :=
  (forall x y, P x -> P y -> cmp x y = -1 \/ cmp x y = 0 \/ cmp x y = 1)%Z
  /\ (forall x y, P x -> P y -> cmp y x = - cmp x y)%Z
  /\ (forall x y, P x -> P y -> cmp x y = 0%Z <-> x = y)
  /\ (forall x y z, P x -> P y -> P z -> cmp x y <= 0 -> cmp y z <= 0 -> cmp x z <= 0)%Z.
Section Order.
  Variable A : Type.
  Variable cmp : A -> A -> Z.
  Fixpoint lex (a b : list A) : Z :=
    match a, b with
    | [], [] => 0
    | [], _ => -1
    | _, [] => 1
    | x :: a', y :: b' => if (cmp x y =? 0)%Z then lex a' b' else cmp x y
    end.
  Variable P : A -> Prop.
  Hypothesis G : good cmp P.

  Lemma good_strict x y z : P x -> P y -> P z -> (cmp x y <= 0 -> cmp y z <= 0 ->
    (cmp x y < 0 \/ cmp y z < 0) -> cmp x z < 0)%Z.
  Proof.
    intros Px Py Pz H1 H2 H3. destruct G as (G1 & G2 & G3 & G4).
    pose proof (G4 x y z Px Py Pz H1 H2).
    destruct (Z.eq_dec (cmp x z) 0) as [E|N]; [|lia].
    apply G3 in E; [|assumption|assumption]. subst z.
    rewrite (G2 x y Px Py) in *. lia.
  Qed.

  Lemma good_lex : good lex (Forall P).
  Proof.
    destruct G as (G1 & G2 & G3 & G4). split; [|split; [|split]].
    - intros a. induction a as [|x a IH]; intros [|y b] Ha Hb; cbn; try lia.
      inversion Ha; inversion Hb; subst. destruct (Z.eqb_spec (cmp x y) 0); auto.
    - intros a. induction a as [|x a IH]; intros [|y b] Ha Hb; cbn; try lia.
      inversion Ha; inversion Hb; subst. rewrite (G2 x y) by assumption.
      destruct (Z.eqb_spec (cmp x y) 0), (Z.eqb_spec (- cmp x y) 0); try lia. auto.
    - intros a. induction a as [|x a IH]; intros [|y b] Ha Hb; cbn; split; intros E; try discriminate; auto.
      + inversion Ha; inversion Hb; subst. destruct (Z.eqb_spec (cmp x y) 0) as [Ez|]; [|contradiction].
        apply G3 in Ez; [|assumption|assumption]. apply IH in E; [|assumption|assumption]. congruence.
      + injection E as -> ->. inversion Ha; subst.
        assert (cmp y y = 0)%Z as -> by (apply G3; auto). cbn. apply IH; auto.
    - intros a. induction a as [|x a IH]; intros [|y b] [|z c] Ha Hb Hc; cbn; try lia.
      inversion Ha; inversion Hb; inversion Hc; subst.
      destruct (Z.eqb_spec (cmp x y) 0) as [E1|N1], (Z.eqb_spec (cmp y z) 0) as [E2|N2]; intros L1 L2.
      + apply G3 in E1; [|assumption|assumption]. apply G3 in E2; [|assumption|assumption]. subst.
        assert (cmp z z = 0)%Z as -> by (apply G3; auto). cbn. eapply IH; [| | |exact L1|exact L2]; assumption.
      + apply G3 in E1; [|assumption|assumption]. subst.
        destruct (Z.eqb_spec (cmp y z) 0); lia.
      + apply G3 in E2; [|assumption|assumption]. subst.
        destruct (Z.eqb_spec (cmp x z) 0); lia.
      + assert (cmp x z < 0)%Z by (apply (good_strict x y z); auto; lia).
        destruct (Z.eqb_spec (cmp x z) 0); lia.
  Qed.
End Order.
Arguments lex {A}.

Definition ncmp (x y : N) : Z := if x =? y then 0%Z else if x <? y then (-1)%Z else 1%Z.
Lemma good_ncmp : good ncmp (fun _ => True).
Proof.
  unfold ncmp. split; [|split; [|split]]; intros;
    repeat match goal with
           | |- context [?a =? ?b] => destruct (N.eqb_spec a b)
           | |- context [?a <? ?b] => destruct (N.ltb_spec a b)
           | H : context [?a =? ?b] |- _ => destruct (N.eqb_spec a b)
           | H : context [?a <? ?b] |- _ => destruct (N.ltb_spec a b)
           end; try lia; split; intros; try lia; congruence.
Qed.
Definition ccmp (c d : list byte) : Z :=
  if Nat.eqb (length c) (length d) then lex ncmp c d
  else if Nat.ltb (length c) (length d) then (-1)%Z else 1%Z.
Lemma good_ccmp : good ccmp (fun _ => True).
Proof.
  destruct (good_lex _ ncmp (fun _ => True) good_ncmp) as (G1 & G2 & G3 & G4).
  assert (T : forall l : list byte, Forall (fun _ => True) l) by (intros; apply Forall_forall; auto).
  unfold ccmp. split; [|split; [|split]]; intros.
  - destruct (Nat.eqb_spec (length x) (length y)); [apply G1; auto|].
    destruct (Nat.ltb_spec (length x) (length y)); lia.
  - destruct (Nat.eqb_spec (length x) (length y)), (Nat.eqb_spec (length y) (length x)); try lia;
      [apply G2; auto|].
    destruct (Nat.ltb_spec (length x) (length y)), (Nat.ltb_spec (length y) (length x)); lia.
  - destruct (Nat.eqb_spec (length x) (length y)); [apply G3; auto|].
    split; [destruct (Nat.ltb_spec (length x) (length y)); lia|congruence].
  - destruct (Nat.eqb_spec (length x) (length y)) as [E1|], (Nat.eqb_spec (length y) (length z)) as [E2|],
      (Nat.eqb_spec (length x) (length z)) as [E3|]; try lia;
      try (eapply G4; [| | |eassumption|eassumption]; auto; fail);
    repeat match goal with
           | |- context [Nat.ltb ?a ?b] => destruct (Nat.ltb_spec a b)
           | H : context [Nat.ltb ?a ?b] |- _ => destruct (Nat.ltb_spec a b)
           end; lia.
Qed.

Lemma cmp_char_lex c : forall d p q, length c = length d ->
  cmp_char (length c) (c ++ p) (d ++ q) =
  Ok (if (lex ncmp c d =? 0)%Z then inr (p, q) else inl (lex ncmp c d)).
Proof.
  induction c as [|x c IH]; intros [|y d] p q E; cbn [length] in E; try discriminate; [reflexivity|].
  cbn [length app cmp_char rd rbind lex tl].
  destruct (N.eqb_spec x y) as [->|N].
  - assert (ncmp y y = 0%Z) as -> by (unfold ncmp; rewrite N.eqb_refl; reflexivity).
    rewrite IH by congruence. reflexivity.
  - assert (ncmp x y = if x <? y then (-1)%Z else 1%Z) as ->.
    { unfold ncmp. destruct (N.eqb_spec x y); [contradiction|reflexivity]. }
    destruct (x <? y); reflexivity.
Qed.

Lemma hd_char e c m : is_char e c -> exists b r, c ++ m = b :: r /\ b <> 0 /\ b < 256.
Proof.
  intros (l & r & -> & _ & Hf). exists l, (r ++ m). inversion Hf; subst. cbn. repeat split; lia.
Qed.

(** the limit [n] as a number of characters to look at, counted from iteration [iter] *)
Lemma strcmp_loop_lex e n cs : forall fuel iter ds j1 j2,
  Forall (is_char e) cs -> Forall (is_char e) ds -> (length cs < fuel)%nat ->
  (n = -1 \/ iter < n)%Z -> (0 <= iter)%Z ->
  strcmp_loop fuel e n iter (concat cs ++ 0 :: j1) (concat ds ++ 0 :: j2) =
  Ok (if (n =? -1)%Z then lex ccmp cs ds
      else lex ccmp (firstn (Z.to_nat (n - iter)) cs) (firstn (Z.to_nat (n - iter)) ds)).
Proof.
  induction cs as [|c cs IH]; intros fuel iter ds j1 j2 Hc Hd Hf Hn Hi.
  - destruct fuel as [|f]; [cbn in Hf; lia|]. cbn [strcmp_loop concat app rd rbind].
    unfold end_of_text. rewrite N.eqb_refl.
    destruct ds as [|d ds].
    + cbn [concat app rd rbind]. rewrite N.eqb_refl. cbn [andb]. rewrite !firstn_nil. destruct (n =? -1)%Z; reflexivity.
    + inversion Hd; subst. cbn [concat]. rewrite <- app_assoc.
      destruct (hd_char e d (concat ds ++ 0 :: j2) H1) as (b & r & -> & Hb & _). cbn [rd rbind].
      destruct (N.eqb_spec b 0); [contradiction|]. cbn [andb].
      destruct (Z.eqb_spec n (-1)); [reflexivity|]. rewrite firstn_nil.
      destruct (Z.to_nat (n - iter)) eqn:Ek; [lia|]. reflexivity.
  - destruct fuel as [|f]; [cbn in Hf; lia|]. inversion Hc; subst. cbn [strcmp_loop concat].
    destruct (hd_char e c (concat cs ++ 0 :: j1) H1) as (b & r & Ec & Hb & _).
    rewrite <- app_assoc. rewrite Ec at 1. cbn [rd rbind]. unfold end_of_text at 1 3.
    destruct ds as [|d ds].
    + cbn [concat app rd rbind]. destruct (N.eqb_spec b 0); [contradiction|]. cbn [andb].
      unfold end_of_text. rewrite N.eqb_refl. rewrite firstn_nil.
      destruct (Z.eqb_spec n (-1)); [reflexivity|].
      destruct (Z.to_nat (n - iter)) eqn:Ek; [lia|]. reflexivity.
    + inversion Hd; subst. cbn [concat]. rewrite <- app_assoc.
      destruct (hd_char e d (concat ds ++ 0 :: j2) H3) as (b' & r' & Ed & Hb' & _).
      rewrite Ed at 1. cbn [rd rbind]. unfold end_of_text.
      destruct (N.eqb_spec b 0); [contradiction|]. destruct (N.eqb_spec b' 0); [contradiction|].
      cbn [andb]. rewrite !nbytes_char by assumption. cbn [rbind].
      destruct (Nat.eqb_spec (length c) (length d)) as [El|El]; cbn [negb].
      * rewrite cmp_char_lex by exact El.
        assert (Ecc : ccmp c d = lex ncmp c d).
        { unfold ccmp. rewrite El, Nat.eqb_refl. reflexivity. }
        destruct (Z.eqb_spec (lex ncmp c d) 0) as [Ez|Ez]; cbn [rbind].
        -- destruct (Z.eqb_spec n (-1)) as [En|En]; cbn [orb].
           ++ rewrite IH; [|assumption|assumption|cbn in Hf; lia|lia|lia].
              subst n. cbn [Z.eqb]. cbn [lex]. rewrite Ecc, Ez. reflexivity.
           ++ destruct (Z.ltb_spec (iter + 1) n).
              ** rewrite IH; [|assumption|assumption|cbn in Hf; lia|lia|lia].
                 destruct (Z.eqb_spec n (-1)); [contradiction|].
                 replace (Z.to_nat (n - iter)) with (S (Z.to_nat (n - (iter + 1)))) by lia.
                 cbn [firstn lex]. rewrite Ecc, Ez. reflexivity.
              ** replace (Z.to_nat (n - iter)) with 1%nat by lia.
                 cbn [firstn lex]. rewrite Ecc, Ez. reflexivity.
        -- assert (ccmp c d <> 0)%Z by congruence.
           destruct (Z.eqb_spec n (-1)).
           ++ cbn [lex]. destruct (Z.eqb_spec (ccmp c d) 0); congruence.
           ++ destruct (Z.to_nat (n - iter)) eqn:Ek; [lia|]. cbn [firstn lex].
              destruct (Z.eqb_spec (ccmp c d) 0); congruence.
      * assert (Ecc : ccmp c d = if Nat.ltb (length c) (length d) then (-1)%Z else 1%Z).
        { unfold ccmp. destruct (Nat.eqb_spec (length c) (length d)); [contradiction|reflexivity]. }
        assert (ccmp c d <> 0)%Z by (rewrite Ecc; destruct (Nat.ltb (length c) (length d)); lia).
        destruct (Z.eqb_spec n (-1)).
        -- cbn [lex]. destruct (Z.eqb_spec (ccmp c d) 0); congruence.
        -- destruct (Z.to_nat (n - iter)) eqn:Ek; [lia|]. cbn [firstn lex].
           destruct (Z.eqb_spec (ccmp c d) 0); congruence.
Qed.

Lemma concat_len e cs : Forall (is_char e) cs -> (length cs <= length (concat cs))%nat.
Proof.
  induction 1; cbn; [lia|]. rewrite app_length. pose proof (char_len_pos _ _ H). lia.
Qed.

Lemma strccmp_lex e m1 m2 s t cs ds n : holds m1 s -> holds m2 t -> chars_of e s cs -> chars_of e t ds ->
  (n = -1 \/ 1 <= n)%Z ->
  strccmp e m1 m2 n = Ok (if (n =? -1)%Z then lex ccmp cs ds
      else lex ccmp (firstn (Z.to_nat n) cs) (firstn (Z.to_nat n) ds)).
Proof.
  intros (_ & j1 & ->) (_ & j2 & ->) (-> & Hc) (-> & Hd) Hn. unfold strccmp.
  rewrite strcmp_loop_lex; try assumption; try lia.
  - rewrite Z.sub_0_r. reflexivity.
  - rewrite app_length. pose proof (concat_len e cs Hc). cbn. lia.
Qed.

Lemma good_chars : good (lex ccmp) (fun _ => True).
Proof.
  pose proof (good_lex _ ccmp (fun _ => True) good_ccmp) as G.
  assert (T : forall l : list (list byte), Forall (fun _ => True) l) by (intros; apply Forall_forall; auto).
  destruct G as (G1 & G2 & G3 & G4). split; [|split; [|split]]; intros.
  - apply G1; auto.
  - apply G2; auto.
  - apply G3; auto.
  - eapply G4; [| | |eassumption|eassumption]; auto.
Qed.

(** ** Length in characters *)
Lemma adv_app c m : adv (length c) (c ++ m) = Ok m.
Proof.
  unfold adv. rewrite app_length. destruct (Nat.leb_spec (length c) (length c + length m)); [|lia].
  rewrite skipn_app, skipn_all2 by lia. rewrite Nat.sub_diag. reflexivity.
Qed.
Lemma chrlen_loop_ok e cs : forall fuel j, Forall (is_char e) cs -> (length cs < fuel)%nat ->
  chrlen_loop fuel e (concat cs ++ 0 :: j) = Ok (length cs).
Proof.
  induction cs as [|c cs IH]; intros [|f] j Hc Hf; try (cbn in Hf; lia).
  - reflexivity.
  - inversion Hc; subst. cbn [chrlen_loop concat]. rewrite <- app_assoc.
    destruct (hd_char e c (concat cs ++ 0 :: j) H1) as (b & r & Ec & Hb & _).
    rewrite Ec at 1. cbn [rd rbind]. destruct (N.eqb_spec b 0); [contradiction|].
    rewrite nbytes_char by assumption. cbn [rbind]. rewrite adv_app. cbn [rbind].
    rewrite IH; [|assumption|cbn in Hf; lia]. reflexivity.
Qed.

(** ** Escapes *)
Lemma strlen_holds m s : holds m s -> strlen m = Ok (length s).
Proof.
  intros (H0 & j & ->). induction s as [|b s IH]; [reflexivity|].
  cbn [app strlen]. destruct (N.eqb_spec b 0) as [->|]; [exfalso; apply H0; left; reflexivity|].
  rewrite IH; [reflexivity|]. intros Hi. apply H0. right. exact Hi.
Qed.
Definition esc (chr : byte) (s : list byte) : list byte :=
  flat_map (fun b => if b =? chr then [92; b] else [b]) s.
Lemma escaped_holds m s chr : holds m s -> escaped m chr = Ok (esc chr s).
Proof.
  intros (H0 & j & ->). induction s as [|b s IH]; [reflexivity|].
  cbn [app escaped]. destruct (N.eqb_spec b 0) as [->|]; [exfalso; apply H0; left; reflexivity|].
  rewrite IH; [|intros Hi; apply H0; right; exact Hi]. cbn [rbind esc flat_map].
  destruct (b =? chr); reflexivity.
Qed.
Lemma no_escape_app s : forall m, no_escape (s ++ m) (length s) = Ok (filter (fun b => negb (b =? 92)) s).
Proof.
  induction s as [|b s IH]; intros m; [reflexivity|].
  cbn [app length no_escape filter]. rewrite IH. cbn [rbind]. destruct (b =? 92); reflexivity.
Qed.
Lemma filter_esc chr s : chr <> 92 ->
  filter (fun b => negb (b =? 92)) (esc chr s) = filter (fun b => negb (b =? 92)) s.
Proof.
  intros Hc. induction s as [|b s IH]; [reflexivity|]. cbn [esc flat_map].
  rewrite filter_app. fold (esc chr s). rewrite IH. cbn [filter].
  destruct (N.eqb_spec b chr) as [->|]; cbn [filter app].
  - destruct (N.eqb_spec chr 92); [contradiction|]. reflexivity.
  - destruct (negb (b =? 92)); reflexivity.
Qed.
Lemma filter_id s : filter (fun b => negb (b =? 92)) s = s <-> ~ In 92 s.
Proof.
  induction s as [|b s IH]; cbn [filter In]; [tauto|].
  destruct (N.eqb_spec b 92) as [->|N]; cbn [negb].
  - split; [|intros H; exfalso; apply H; left; reflexivity].
    intros E. exfalso.
    assert (L : (length (filter (fun b => negb (b =? 92)%N) s) <= length s)%nat).
    { clear. induction s as [|x s IH]; cbn [filter length]; [lia|]. destruct (negb (x =? 92)%N); cbn [length]; lia. }
    rewrite E in L. cbn [length] in L. lia.
  - split.
    + intros E. injection E as E. apply IH in E. intros [H|H]; [congruence|contradiction].
    + intros H. f_equal. apply IH. tauto.
Qed.
