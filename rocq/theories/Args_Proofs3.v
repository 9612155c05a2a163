(** Proofs about the command line of asclite: what is launched. *)
From Coq Require Import String.
From Coq Require Import List ZArith NArith Arith Bool Lia.
From Verif Require Store_Model Store_Proofs.
From Verif Require Import Base Sgml_Model Args_Model Args_Spec Args_Proofs1 Args_Proofs2.
Import ListNotations.
Local Open Scope list_scope.

Definition outputs_of (l : list option_) : list (list N) :=
  if generic l then if existsb (fun o => if list_eq_dec N.eq_dec o (B "stdout") then true else false) (reports_of l) then [B "stdout"] else []
  else match reports_of l with [] => [B "sum"; B "stdout"] | r => r end.
(** the variables after the checks *)
Record fin (l : list option_) (s : st) : Prop := {
  f_b : forall x, x <> BIsg -> x <> BAuto -> x <> BUem -> b_ s x = bspec l x;
  f_isg : b_ s BIsg = negb (on l NoGaps) && negb (generic l);
  f_auto : b_ s BAuto = some (self_side l);
  f_uem : b_ s BUem = some (uem_side l);
  f_s : forall y, y <> SAuto -> y <> SUem -> y <> SOptional -> s_ s y = sspec l y;
  f_sauto : forall w, self_side l = Some w -> s_ s SAuto = sname w;
  f_suem : forall w, uem_side l = Some w -> s_ s SUem = sname w;
  f_opt : s_ s SOptional = optional_word l;
  f_f : feedback s = atoi (value l Level (B "4"));
  f_o : outs s = outputs_of l;
  f_h : hyps s = hyps_of l;
  f_r : ref s = option_map ref_input (ref_of l);
  f_p : forall n, Store_Model.massoc (props s) n = property_of l n;
  f_n : NoDup (map fst (props s)) }.

(** ** Checks *)
Lemma format_ref o : format_of (option_map ref_input o) = match o with Some r => rname (snd r) | None => [] end.
Proof. destruct o; reflexivity. Qed.
Lemma format_hyps l h : In h (hyps_of l) -> exists f, i_format h = hname f.
Proof.
  unfold hyps_of. rewrite in_flat_map. intros (o & _ & K). destruct o; try (destruct K; fail). destruct K as [<-|[]]. cbn [i_format]. eexists. reflexivity.
Qed.
Lemma fits_match f (r : rformat) h : i_format h = hname f -> (formats_match (rname r) h = true <-> fits r (i_format h)).
Proof.
  intros E. unfold formats_match. rewrite E. destruct f, r; vm_compute; split; intros K; try reflexivity; try discriminate; try constructor; inversion K.
Qed.
Lemma all_fit l r : forallb (formats_match (rname r)) (hyps_of l) = true <-> (forall h, In h (hyps_of l) -> fits r (i_format h)).
Proof.
  rewrite forallb_forall. split; intros H h K; destruct (format_hyps l h K) as (f & E); apply (fits_match f r h E); apply H; exact K.
Qed.
Lemma fin_ref l s s' : inv l s -> generic l = false -> b_ s' = b_ s -> s_ s' = s_ s -> feedback s' = feedback s -> outs s' = match outs s with [] => [B "sum"; B "stdout"] | r => r end ->
  hyps s' = hyps s -> ref s' = ref s -> props s' = props s -> fin l s'.
Proof.
  intros V G E1 E2 E3 E4 E5 E6 E7. pose proof (v_b _ _ V) as VB. pose proof (v_s _ _ V) as VS.
  split.
  - intros x _ _ _. rewrite E1. apply VB.
  - rewrite E1, VB, G. cbn [bspec negb]. rewrite andb_true_r. reflexivity.
  - rewrite E1, VB. unfold self_side. rewrite G. cbn [bspec]. destruct (self_of l) as [[]|]; reflexivity.
  - rewrite E1, VB. unfold uem_side. rewrite G. cbn [bspec]. destruct (uem_of l) as [[f []]|]; reflexivity.
  - intros y _ _ _. rewrite E2. apply VS.
  - intros w. rewrite E2, VS. unfold self_side. rewrite G. cbn [sspec]. destruct (self_of l) as [[]|]; intros [= <-]; reflexivity.
  - intros w. rewrite E2, VS. unfold uem_side. rewrite G. cbn [sspec]. destruct (uem_of l) as [[f []]|]; intros [= <-]; reflexivity.
  - rewrite E2, VS. unfold optional_word. rewrite G. cbn [sspec]. destruct (optional_of l) as [[]|]; reflexivity.
  - rewrite E3. apply V.
  - rewrite E4, (v_o _ _ V). unfold outputs_of. rewrite G. reflexivity.
  - rewrite E5. apply V.
  - rewrite E6. apply V.
  - rewrite E7. apply V.
  - rewrite E7. apply V.
Qed.
Lemma ref_checks l s : inv l s -> generic l = false -> (on l TimeBased = true -> hyps_of l <> []) ->
  exists s', check_ref s = Ok s' /\ fin l s' /\ (ok s' = true <-> acceptable l).
Proof.
  intros V G T. unfold check_ref. cbv zeta.
  set (s1 := if is_none (ref s) || is_nil (hyps s) then fail s else s).
  assert (A1 : b_ s1 = b_ s /\ s_ s1 = s_ s /\ feedback s1 = feedback s /\ outs s1 = outs s /\ hyps s1 = hyps s /\ ref s1 = ref s /\ props s1 = props s
               /\ ok s1 = negb (is_none (ref s) || is_nil (hyps s))).
  { unfold s1. destruct (is_none (ref s) || is_nil (hyps s)); cbn; rewrite ?(v_k _ _ V); repeat split. }
  clearbody s1. destruct A1 as (B1 & B2 & B3 & B4 & B5 & B6 & B7 & B8).
  assert (TB : b_ s1 BTimeBase = on l TimeBased) by (rewrite B1; apply (v_b _ _ V)).
  rewrite TB, B5, B6, (v_h _ _ V), (v_r _ _ V), format_ref. rewrite (v_h _ _ V), (v_r _ _ V) in B8.
  assert (HT : exists s2, (if on l TimeBased then match hyps_of l with [] => Undef
              | h :: _ => Ok (if same (i_format h) (B "trn") || same (match ref_of l with Some r => rname (snd r) | None => [] end) (B "trn") || same (match ref_of l with Some r => rname (snd r) | None => [] end) (B "stm") then fail s1 else s1)
              end else Ok s1) = Ok s2 /\ b_ s2 = b_ s1 /\ s_ s2 = s_ s1 /\ feedback s2 = feedback s1 /\ outs s2 = outs s1 /\ hyps s2 = hyps s1 /\ ref s2 = ref s1 /\ props s2 = props s1
              /\ ok s2 = ok s1 && (negb (on l TimeBased) || match hyps_of l with [] => false | h :: _ => 
                   negb (same (i_format h) (B "trn") || same (match ref_of l with Some r => rname (snd r) | None => [] end) (B "trn") || same (match ref_of l with Some r => rname (snd r) | None => [] end) (B "stm")) end)).
  { destruct (on l TimeBased).
    - destruct (hyps_of l) as [|h hs]; [destruct (T eq_refl eq_refl)|]. eexists. split; [reflexivity|].
      destruct (same (i_format h) (B "trn") || _ || _); cbn; rewrite ?andb_false_r, ?andb_true_r; repeat split.
    - eexists. split; [reflexivity|]. cbn [negb orb]. rewrite andb_true_r. repeat split. }
  destruct HT as (s2 & E & C1 & C2 & C3 & C4 & C5 & C6 & C7 & C8). rewrite E. cbn [rbind]. rewrite C5, C6, B5, B6, (v_h _ _ V), (v_r _ _ V), format_ref. clear E.
  set (fr := match ref_of l with Some r => rname (snd r) | None => [] end) in *.
  set (s3 := if negb (is_nil (hyps_of l)) && negb (is_none (option_map ref_input (ref_of l))) then if forallb (formats_match fr) (hyps_of l) then s2 else fail s2 else s2).
  assert (D : b_ s3 = b_ s2 /\ s_ s3 = s_ s2 /\ feedback s3 = feedback s2 /\ outs s3 = outs s2 /\ hyps s3 = hyps s2 /\ ref s3 = ref s2 /\ props s3 = props s2
              /\ ok s3 = ok s2 && (is_nil (hyps_of l) || is_none (option_map ref_input (ref_of l)) || forallb (formats_match fr) (hyps_of l))).
  { unfold s3. destruct (is_nil (hyps_of l)), (is_none (option_map ref_input (ref_of l))), (forallb (formats_match fr) (hyps_of l)); cbn; rewrite ?andb_true_r, ?andb_false_r; repeat split. }
  clearbody s3. destruct D as (D1 & D2 & D3 & D4 & D5 & D6 & D7 & D8).
  eexists. split; [reflexivity|]. split.
  - apply (fin_ref l s); [exact V|exact G|..]; destruct (outs s3) as [|o os] eqn:EO; cbn [b_ s_ feedback outs hyps ref props set_outs]; try congruence.
    all: rewrite <- B4, <- C4, <- D4, ?EO; first [reflexivity|congruence].
  - assert (EK : ok (match outs s3 with [] => set_outs [B "sum"; B "stdout"] s3 | _ :: _ => s3 end) = ok s3) by (destruct (outs s3); reflexivity).
    rewrite EK, D8, C8, B8. clear - G. unfold acceptable. rewrite G.
    destruct (ref_of l) as [[f fm]|] eqn:ER.
    + cbn [option_map is_none orb] in *. rewrite orb_false_r. destruct (hyps_of l) as [|h hs] eqn:EH; [cbn; split; [discriminate|intros [K _]; congruence]|].
      cbn [is_nil negb orb andb]. rewrite <- EH. subst fr. cbn [snd].
      split.
      * intros K. apply andb_prop in K. destruct K as [K1 K2]. split; [rewrite EH; discriminate|]. intros _. exists f, fm. split; [reflexivity|]. split; [apply all_fit; exact K2|].
        intros T. rewrite T in K1. cbn [negb orb] in K1. apply negb_true_iff in K1. apply orb_false_elim in K1. destruct K1 as [K1 K3]. apply orb_false_elim in K1. destruct K1 as [_ K1].
        destruct fm; [vm_compute in K3; discriminate|reflexivity|vm_compute in K1; discriminate].
      * intros [_ K]. destruct (K eq_refl) as (f' & fm' & [= <- <-] & K1 & K2). rewrite (proj2 (all_fit l fm) K1), andb_true_r.
        destruct (on l TimeBased); [|reflexivity]. rewrite (K2 eq_refl) in *. cbn [negb orb].
        assert (F : fits Rrttm (i_format h)) by (apply K1; rewrite EH; left; reflexivity). inversion F as [| | |E]. reflexivity.
    + cbn [option_map is_none orb negb andb]. split; [discriminate|]. intros [_ K]. destruct (K eq_refl) as (? & ? & K1 & _). discriminate K1.
Qed.
Lemma existsb_same {A} (f g : A -> bool) l : (forall x, f x = g x) -> existsb f l = existsb g l.
Proof. intros H. induction l as [|x l IH]; [reflexivity|]. cbn [existsb]. rewrite H, IH. reflexivity. Qed.
Lemma generic_checks l s : inv l s -> generic l = true -> fin l (check_generic s) /\ (ok (check_generic s) = true <-> acceptable l).
Proof.
  intros V G. pose proof (v_b _ _ V) as VB. pose proof (v_s _ _ V) as VS. unfold check_generic. cbv zeta.
  set (s1 := if is_nil (hyps s) then fail s else s).
  assert (A1 : b_ s1 = b_ s /\ s_ s1 = s_ s /\ feedback s1 = feedback s /\ outs s1 = outs s /\ hyps s1 = hyps s /\ ref s1 = ref s /\ props s1 = props s
               /\ ok s1 = negb (is_nil (hyps s))).
  { unfold s1. destruct (is_nil (hyps s)); cbn; rewrite ?(v_k _ _ V); repeat split. }
  clearbody s1. destruct A1 as (B1 & B2 & B3 & B4 & B5 & B6 & B7 & B8).
  set (s2 := set_outs _ (setb BIsg false s1)).
  assert (A2 : (forall x, x <> BIsg -> b_ s2 x = bspec l x) /\ b_ s2 BIsg = false /\ (forall y, s_ s2 y = sspec l y) /\ feedback s2 = feedback s /\ outs s2 = outputs_of l
               /\ hyps s2 = hyps s /\ ref s2 = ref s /\ props s2 = props s /\ ok s2 = negb (is_nil (hyps s))).
  { unfold s2. cbn [b_ s_ feedback outs hyps ref props ok set_outs setb]. rewrite B4, (v_o _ _ V). split; [|split; [|split; [|split; [|split]]]]; try tauto.
    - intros x D. destruct (bv_dec x BIsg); [contradiction|]. rewrite B1. apply VB.
    - intros y. rewrite B2. apply VS.
    - unfold outputs_of. rewrite G. rewrite (existsb_same (fun o => same o (B "stdout")) (fun o => if list_eq_dec N.eq_dec o (B "stdout") then true else false)) by (intros o; apply same_dec). reflexivity. }
  clearbody s2. clear B1 B2 B3 B4 B5 B6 B7 B8 s1. destruct A2 as (B1 & B0 & B2 & B3 & B4 & B5 & B6 & B7 & B8).
  rewrite (B1 BAuto) by discriminate. rewrite !(B2 SAuto). cbn [bspec sspec].
  set (s3 := if some (self_of l) then _ else s2).
  assert (A3 : (forall x, x <> BIsg -> x <> BAuto -> b_ s3 x = bspec l x) /\ b_ s3 BIsg = false /\ b_ s3 BAuto = some (self_side l)
               /\ (forall y, y <> SAuto -> s_ s3 y = sspec l y) /\ (forall w, self_side l = Some w -> s_ s3 SAuto = sname w) /\ feedback s3 = feedback s /\ outs s3 = outputs_of l
               /\ hyps s3 = hyps s /\ ref s3 = ref s /\ props s3 = props s /\ ok s3 = negb (is_nil (hyps s))).
  { pose proof (B1 BAuto ltac:(discriminate)) as BA. cbn [bspec] in BA. unfold s3, self_side. rewrite G. destruct (self_of l) as [[]|]; cbn [some sname side_in] in *;
    (match goal with |- context [if ?c then _ else _] => let r := eval vm_compute in c in change c with r end || idtac); cbv beta iota;
    cbn [b_ s_ feedback outs hyps ref props ok sets setb];
    (split; [intros x D1 D2; try (destruct (bv_dec x BAuto); [contradiction|]); apply B1; exact D1|]);
    (split; [exact B0|]); (split; [try exact BA; reflexivity|]);
    (split; [intros y D; try (destruct (sv_dec y SAuto); [contradiction|]); apply B2|]);
    (split; [intros w [= <-]; reflexivity|]); repeat split; assumption. }
  clearbody s3. clear B1 B2 B3 B4 B5 B6 B7 B8 B0 s2. destruct A3 as (B1 & B0 & B9 & B2 & B10 & B3 & B4 & B5 & B6 & B7 & B8).
  rewrite (B1 BUem) by discriminate. rewrite !(B2 SUem) by discriminate. cbn [bspec sspec].
  set (s4 := if some (uem_of l) then _ else s3).
  assert (A3 : (forall x, x <> BIsg -> x <> BAuto -> x <> BUem -> b_ s4 x = bspec l x) /\ b_ s4 BIsg = false /\ b_ s4 BAuto = some (self_side l) /\ b_ s4 BUem = some (uem_side l)
               /\ (forall y, y <> SAuto -> y <> SUem -> s_ s4 y = sspec l y) /\ (forall w, self_side l = Some w -> s_ s4 SAuto = sname w) /\ (forall w, uem_side l = Some w -> s_ s4 SUem = sname w)
               /\ feedback s4 = feedback s /\ outs s4 = outputs_of l
               /\ hyps s4 = hyps s /\ ref s4 = ref s /\ props s4 = props s /\ ok s4 = negb (is_nil (hyps s))).
  { pose proof (B1 BUem ltac:(discriminate) ltac:(discriminate)) as BA. cbn [bspec] in BA. unfold s4, uem_side. rewrite G. destruct (uem_of l) as [[f []]|]; cbn [some sname side_in option_map snd] in *;
    (match goal with |- context [if ?c then _ else _] => let r := eval vm_compute in c in change c with r end || idtac); cbv beta iota;
    cbn [b_ s_ feedback outs hyps ref props ok sets setb];
    (split; [intros x D1 D2 D3; try (destruct (bv_dec x BUem); [contradiction|]); apply B1; [exact D1|exact D2]|]);
    (split; [exact B0|]); (split; [exact B9|]); (split; [try exact BA; reflexivity|]);
    (split; [intros y D E; try (destruct (sv_dec y SUem); [contradiction|]); apply B2; exact D|]);
    (split; [exact B10|]);
    (split; [intros w [= <-]; reflexivity|]); repeat split; assumption. }
  clearbody s4. clear B1 B2 B3 B4 B5 B6 B7 B8 B0 B9 B10 s3. destruct A3 as (B1 & B0 & B9 & B11 & B2 & B10 & B12 & B3 & B4 & B5 & B6 & B7 & B8).
  rewrite !(B2 SOptional) by discriminate. cbn [sspec].
  set (s5 := if _ || _ then _ else s4).
  assert (A5 : (forall x, b_ s5 x = b_ s4 x) /\ (forall y, y <> SOptional -> s_ s5 y = s_ s4 y) /\ s_ s5 SOptional = optional_word l
               /\ feedback s5 = feedback s /\ outs s5 = outputs_of l
               /\ hyps s5 = hyps s /\ ref s5 = ref s /\ props s5 = props s /\ ok s5 = negb (is_nil (hyps s))).
  { pose proof (B2 SOptional ltac:(discriminate) ltac:(discriminate)) as BA. cbn [sspec] in BA. unfold s5, optional_word. rewrite G. destruct (optional_of l) as [[]|]; cbn [sname] in *;
    (match goal with |- context [if ?c then sets _ _ _ else _] => let r := eval vm_compute in c in change c with r end); cbv beta iota;
    cbn [b_ s_ feedback outs hyps ref props ok sets setb];
    (split; [reflexivity|]); (split; [intros y D; try (destruct (sv_dec y SOptional); [contradiction|]); reflexivity|]);
    (split; [try exact BA; reflexivity|]); repeat split; assumption. }
  clearbody s5. destruct A5 as (C1 & C2 & C3 & C4 & C5 & C6 & C7 & C8 & C9). split.
  - split; rewrite ?C1, ?C4, ?C5, ?C6, ?C7, ?C8; try (apply V); try assumption.
    + intros x D1 D2 D3. rewrite C1. apply B1; assumption.
    + rewrite B0, G. cbn [negb]. rewrite andb_false_r. reflexivity.
    + intros y D1 D2 D3. rewrite C2 by exact D3. apply B2; assumption.
    + intros w E. rewrite C2 by discriminate. apply B10. exact E.
    + intros w E. rewrite C2 by discriminate. apply B12. exact E.
    + reflexivity.
  - rewrite C9, (v_h _ _ V). unfold acceptable. rewrite G. split.
    + intros K. split; [intros E; rewrite E in K; discriminate K|discriminate].
    + intros [K _]. destruct (hyps_of l); [congruence|reflexivity].
Qed.
