(** Proofs about Read_Model: lines of CTM files. *)
From Coq Require Import List NArith ZArith Arith Bool Lia.
From Verif Require Import Base Chan_Model Chan_Spec Chan_Proofs Read_Model Read_Spec Read_Proofs.
Import ListNotations.
Local Open Scope res_scope.

Definition short (w : str) : Prop := (length w < LINE_LENGTH)%nat.
Lemma bcpy_short w : short w -> bcpy w = Ok w.
Proof. intro H. unfold bcpy. rewrite (proj2 (Nat.ltb_lt _ _) H). reflexivity. Qed.
Lemma bcpy_long w : ~ short w -> bcpy w = Undef.
Proof. intro H. unfold bcpy. rewrite (proj2 (Nat.ltb_ge _ _)); [reflexivity|]. unfold short in H. lia. Qed.
Lemma bcpy_cases w : (short w /\ bcpy w = Ok w) \/ (~ short w /\ bcpy w = Undef).
Proof. destruct (le_lt_dec LINE_LENGTH (length w)); [right|left]; split; [unfold short; lia|apply bcpy_long; unfold short; lia|assumption|apply bcpy_short; assumption]. Qed.

Lemma strspn_fields l ws : Fields l ws -> no_nul l -> exists b r, l = b ++ r /\ strspn l = length b /\ Fields r ws /\ no_nul r.
Proof.
  induction l as [|c l IH]; intros F Nn; cbn [strspn].
  - exists [], []. auto.
  - destruct ((c =? 32) || (c =? 9))%N eqn:E.
    + assert (is_blank c) by (apply orb_true_iff in E; rewrite !N.eqb_eq in E; unfold is_blank; tauto).
      destruct IH as (b & r & -> & -> & F' & N'); [eapply fields_drop; eauto|inversion Nn; assumption|].
      exists (c :: b), r. repeat split; auto.
    + exists [], (c :: l). auto.
Qed.
Lemma opt_none pre rem : Fields rem [] -> no_nul rem -> exists b e, opt_field (pre ++ rem ++ [0%N]) (length pre) = Ok (None, b, e).
Proof.
  intros F Nn. inversion F; subst. destruct (strtok_none pre rem H Nn) as (e & E). unfold opt_field. rewrite E. cbn [rbind]. eexists _, _. reflexivity.
Qed.
Lemma opt_step pre rem w ws : Fields rem (w :: ws) -> no_nul rem ->
  (~ short w /\ opt_field (pre ++ rem ++ [0%N]) (length pre) = Undef) \/
  (short w /\ exists pre' rem', opt_field (pre ++ rem ++ [0%N]) (length pre) = Ok (Some w, pre' ++ rem' ++ [0%N], length pre') /\
    Fields rem' ws /\ no_nul rem').
Proof.
  intros F Nn. destruct (strtok_step pre rem w ws F Nn) as (p & pre' & rem' & buf' & E & Eb & F' & N' & L & NE & Fw & Nw & q & -> & Q).
  unfold opt_field. rewrite E. cbn [rbind]. rewrite Eb, (token_at q w pre' rem' Nw Q). cbn [rbind].
  destruct (bcpy_cases w) as [[S B]|[S B]]; rewrite B; cbn [rbind]; [right|left; auto].
  split; [exact S|]. exists pre', rem'. auto.
Qed.
Lemma last_10 (l : str) : N.eqb (last l 0%N) 10 = true -> l <> [].
Proof. intros H ->. discriminate H. Qed.
Lemma chop_line l ws : Fields l ws -> Fields (if N.eqb (last l 0%N) 10 then removelast l else l) ws.
Proof.
  intros F. destruct (N.eqb (last l 0%N) 10) eqn:E; [|exact F].
  apply (fields_chop _ _ F _ _ (removelast_last l 0%N (last_10 l E))). apply N.eqb_eq in E. rewrite E. right; right; reflexivity.
Qed.
Lemma nul_removelast l : no_nul l -> no_nul (removelast l).
Proof.
  intros F. destruct l as [|a l]; [exact F|]. rewrite (removelast_last (a :: l) 0%N) in F by discriminate. apply nul_app in F. tauto.
Qed.

Section Ctm.
  Variable numC : str -> Z.
  Lemma lower_nil_iff x : casecmp NA x = true <-> map lower x = [110; 97]%N.
  Proof. rewrite casecmp_iff. unfold says. reflexivity. Qed.
  Lemma and_time b : (match b with
       | 38%N :: 38%N :: x => twice 38 b = true /\ numC (if twice 38 b then skipn 2 b else b) = numC x
       | _ => twice 38 b = false /\ numC (if twice 38 b then skipn 2 b else b) = numC b
       end).
  Proof.
    destruct b as [|c [|d b]]; [auto| |].
    - cbn [twice]. repeat (destruct c as [|c]; [auto|] || destruct c as [c|c|]; auto).
    - cbn [twice]. destruct (N.eqb_spec c 38) as [->|E].
      + destruct (N.eqb_spec d 38) as [->|E]; [auto|]. cbn [andb].
        repeat (destruct d as [|d]; [auto|] || destruct d as [d|d|]; auto). exfalso; apply E; reflexivity.
      + cbn [andb]. repeat (destruct c as [|c]; [auto|] || destruct c as [c|c|]; auto). exfalso; apply E; reflexivity.
  Qed.

  Definition seven (ws : list str) : list str := firstn 7 ws.
  Lemma ctm_line cs line ws : no_nul line -> line <> [] -> Fields (cased cs line) ws ->
    (line = [10%N] /\ parse_ctm_line numC cs line = Exit) \/
    (line <> [10%N] /\ (length ws < 5 \/ ~ Forall short (seven ws))%nat /\ parse_ctm_line numC cs line = Undef) \/
    (line <> [10%N] /\ (5 <= length ws)%nat /\ Forall short (seven ws) /\ exists w, parse_ctm_line numC cs line = Ok w /\ ctm_of numC ws w).
  Proof.
    intros Nn NE F. apply (nul_cased cs) in Nn. unfold parse_ctm_line. rewrite cased_eq. cbv zeta.
    set (l := cased cs line) in *.
    assert (HN : line = [10%N] <-> (if N.eqb (last l 0%N) 10 then removelast l else l) = []).
    { subst l. split.
      - intros ->. destruct cs; reflexivity.
      - destruct line as [|a [|b line]]; [congruence| |].
        + destruct cs; cbn [cased map last removelast].
          * destruct (N.eqb_spec a 10); [subst; reflexivity|discriminate].
          * destruct (N.eqb_spec (lower a) 10) as [E|]; [|discriminate]. intros _. unfold lower in E.
            destruct ((65 <=? a) && (a <=? 90))%N eqn:E2; [|subst; reflexivity].
            exfalso. apply andb_true_iff in E2. rewrite !N.leb_le in E2. clear - E E2. lia.
        + assert (G : exists a' b' r', cased cs (a :: b :: line) = a' :: b' :: r') by (destruct cs; cbn [cased map]; eauto).
          destruct G as (a' & b' & r' & ->). destruct (N.eqb _ 10); discriminate. }
    clearbody l.
    match goal with |- context [match ?x with [] => Exit | _ => _ end] => set (m := x) end.
    assert (F0 : Fields m ws) by apply (chop_line l ws F).
    assert (N0 : no_nul m) by (subst m; destruct (N.eqb _ 10); [apply nul_removelast|]; exact Nn).
    assert (HN' : line = [10%N] <-> m = []) by exact HN.
    clear HN. rename HN' into HN. clearbody m. clear l Nn F.
    destruct m as [|m0 m]; [left; split; [apply HN; reflexivity|reflexivity]|].
    assert (NL : line <> [10%N]) by (intro E; apply HN in E; discriminate E). clear HN.
    right.
    destruct (strspn_fields _ _ F0 N0) as (b0 & r0 & E0 & -> & F1 & N1). rewrite E0, <- app_assoc.
    clear E0 F0 N0.
    destruct ws as [|f ws]; [left; rewrite field_none by assumption; cbn [length]; repeat split; auto; lia|].
    destruct (field_step b0 r0 f ws F1 N1) as (p1 & r1 & b1 & -> & E1 & F2 & N2 & _). cbn [rbind].
    destruct (bcpy_cases f) as [[Sf ->]|[Sf ->]]; cbn [rbind];
      [|left; split; [exact NL|]; split; [right; intro X; inversion X; contradiction|reflexivity]].
    rewrite E1. destruct ws as [|c ws]; [left; rewrite field_none by assumption; cbn [length]; repeat split; auto; lia|].
    destruct (field_step p1 r1 c ws F2 N2) as (p2 & r2 & b2 & -> & E2 & F3 & N3 & _). cbn [rbind].
    destruct (bcpy_cases c) as [[Sc ->]|[Sc ->]]; cbn [rbind];
      [|left; split; [exact NL|]; split; [right; intro X; inversion X as [|? ? X1 X2]; inversion X2; contradiction|reflexivity]].
    rewrite E2. destruct ws as [|b ws]; [left; rewrite field_none by assumption; cbn [length]; repeat split; auto; lia|].
    destruct (field_step p2 r2 b ws F3 N3) as (p3 & r3 & b3 & -> & E3 & F4 & N4 & _). cbn [rbind].
    destruct (bcpy_cases b) as [[Sb ->]|[Sb ->]]; cbn [rbind];
      [|left; split; [exact NL|]; split; [right; intro X; do 2 apply Forall_inv_tail in X; apply Forall_inv in X; contradiction|reflexivity]].
    rewrite E3. destruct ws as [|d ws]; [left; rewrite field_none by assumption; cbn [length]; repeat split; auto; lia|].
    destruct (field_step p3 r3 d ws F4 N4) as (p4 & r4 & b4 & -> & E4 & F5 & N5 & _). cbn [rbind].
    destruct (bcpy_cases d) as [[Sd ->]|[Sd ->]]; cbn [rbind];
      [|left; split; [exact NL|]; split; [right; intro X; do 3 apply Forall_inv_tail in X; apply Forall_inv in X; contradiction|reflexivity]].
    rewrite E4. destruct ws as [|t ws]; [left; rewrite field_none by assumption; cbn [length]; repeat split; auto; lia|].
    destruct (field_step p4 r4 t ws F5 N5) as (p5 & r5 & b5 & -> & E5 & F6 & N6 & _). cbn [rbind].
    destruct (bcpy_cases t) as [[St ->]|[St ->]]; cbn [rbind];
      [|left; split; [exact NL|]; split; [right; intro X; do 4 apply Forall_inv_tail in X; apply Forall_inv in X; contradiction|reflexivity]].
    assert (NEs : forall r ws w, Fields r (w :: ws) -> w <> []) by (intros r ws0 w Fr; inversion Fr; assumption).
    assert (NZ : nonempty f = Ok f /\ nonempty c = Ok c /\ nonempty b = Ok b /\ nonempty d = Ok d /\ nonempty t = Ok t).
    { apply NEs in F1. apply NEs in F2. apply NEs in F3. apply NEs in F4. apply NEs in F5.
      destruct f; [congruence|]. destruct c; [congruence|]. destruct b; [congruence|]. destruct d; [congruence|]. destruct t; [congruence|]. auto. }
    destruct NZ as (Nf & Nc & Nb & Nd & Nt).
    rewrite E5. clear E1 E2 E3 E4 E5 b1 b2 b3 b4 b5.
    destruct ws as [|x ws].
    - right. split; [exact NL|]. split; [cbn [length]; lia|]. split; [unfold seven; cbn [firstn]; auto 10 using Forall_nil, Forall_cons|].
      destruct (opt_none p5 r5 F6 N6) as (bb & ee & ->). cbn [rbind]. rewrite Nf, Nc, Nb, Nd, Nt. cbn [rbind].
      eexists. split; [reflexivity|]. cbn [ctm_of c_mword the_word conv turn sp t1 dur c_bad c_conf c_corr option_map].
      repeat (split; [reflexivity|]). split; [apply (and_time b)|auto].
    - destruct (opt_step p5 r5 x ws F6 N6) as [[Sx ->]|[Sx (p6 & r6 & -> & F7 & N7)]]; cbn [rbind];
        [left; split; [exact NL|]; split; [right; intro X; do 5 apply Forall_inv_tail in X; apply Forall_inv in X; contradiction|reflexivity]|].
      assert (HX : (map lower x = [110; 97]%N /\ (if casecmp NA x then None else Some (numC x)) = None) \/
                   (map lower x <> [110; 97]%N /\ (if casecmp NA x then None else Some (numC x)) = Some (numC x))).
      { destruct (casecmp NA x) eqn:E; [left; split; [apply lower_nil_iff; exact E|reflexivity]|right; split; [|reflexivity]].
        intro E'. apply lower_nil_iff in E'. congruence. }
      destruct ws as [|y ws].
      + right. split; [exact NL|]. split; [cbn [length]; lia|]. split; [unfold seven; cbn [firstn]; auto 10 using Forall_nil, Forall_cons|].
        destruct (opt_none p6 r6 F7 N7) as (bb & ee & ->). cbn [rbind fst]. rewrite Nf, Nc, Nb, Nd, Nt. cbn [rbind].
        eexists. split; [reflexivity|]. cbn [ctm_of c_mword the_word conv turn sp t1 dur c_bad c_conf c_corr option_map].
        repeat (split; [reflexivity|]). split; [apply (and_time b)|]. split; [exact HX|reflexivity].
      + destruct (opt_step p6 r6 y ws F7 N7) as [[Sy ->]|[Sy (p7 & r7 & -> & F8 & N8)]]; cbn [rbind];
          [left; split; [exact NL|]; split; [right; intro X; do 6 apply Forall_inv_tail in X; apply Forall_inv in X; contradiction|reflexivity]|].
        right. split; [exact NL|]. split; [cbn [length]; lia|]. split; [unfold seven; cbn [firstn]; auto 10 using Forall_nil, Forall_cons|].
        cbn [fst]. rewrite Nf, Nc, Nb, Nd, Nt. cbn [rbind].
        eexists. split; [reflexivity|]. cbn [ctm_of c_mword the_word conv turn sp t1 dur c_bad c_conf c_corr option_map].
        repeat (split; [reflexivity|]). split; [apply (and_time b)|]. split; [exact HX|reflexivity].
  Qed.
End Ctm.
