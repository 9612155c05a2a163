(** Loading the lexicon. *)
From Coq Require Import List NArith ZArith Arith Bool Lia.
From Verif Require Import Base Text_Model Text_Spec Text_Proofs1 Text_Thm Word_Model Wseg_Model Wseg_Spec.
Import ListNotations.
Local Open Scope res_scope.

Section Load.
Variable e : enc.
Lemma blank_iff b : blank b = true <-> blank_char [b].
Proof. unfold blank, blank_char. rewrite !orb_true_iff, !N.eqb_eq. intuition congruence. Qed.
Lemma blank_dec c : blank_char c \/ ~ blank_char c.
Proof.
  unfold blank_char. destruct (list_eq_dec N.eq_dec c [32%N]), (list_eq_dec N.eq_dec c [9%N]), (list_eq_dec N.eq_dec c [10%N]); tauto.
Qed.
Definition stops (cs : list (list N)) (P : list N -> Prop) : Prop := match cs with [] => True | c :: _ => P c end.
Lemma split_run (P : list N -> Prop) (dec : forall c, P c \/ ~ P c) cs : exists a b, cs = a ++ b /\ Forall P a /\ stops b (fun c => ~ P c).
Proof.
  induction cs as [|c cs (a & b & -> & F & S)]; [exists [], []; repeat split; constructor|].
  destruct (dec c) as [H|H]; [exists (c :: a), b; repeat split; [constructor; assumption|exact S]|exists [], (c :: a ++ b); repeat split; [constructor|exact H]].
Qed.
Lemma first_byte c m : is_char e c -> exists b, rd (c ++ m) = Ok b /\ end_of_text b = false /\ (length c = 1 -> c = [b]) /\ exists r, c = b :: r.
Proof.
  intros (l & r & -> & _ & F). exists l. split; [reflexivity|]. pose proof (Forall_inv F) as H. cbn beta in H. split; [apply N.eqb_neq; lia|]. split; [destruct r; [reflexivity|discriminate]|eauto].
Qed.
Lemma blank_len c : blank_char c -> length c = 1.
Proof. intros [-> |[-> | ->]]; reflexivity. Qed.
Lemma strspn_ok : forall ws rest fuel, Forall (is_char e) (ws ++ rest) -> Forall blank_char ws -> stops rest (fun c => ~ blank_char c) -> length ws < fuel ->
  strspn fuel e (cstr (concat (ws ++ rest))) = Ok (length ws).
Proof.
  unfold cstr. induction ws as [|c ws IH]; intros rest fuel FC FB ST L; (destruct fuel as [|f]; [lia|]); cbn [strspn app].
  - destruct rest as [|c rest]; [reflexivity|]. cbn [app] in FC. cbn [concat]. rewrite <- app_assoc. pose proof (Forall_inv FC) as IC.
    destruct (first_byte c (concat rest ++ [0%N]) IC) as (b & RB & EB0 & C1 & r & EC). rewrite RB. cbn [rbind]. rewrite EB0. rewrite (nbytes_char e c _ IC). cbn [rbind].
    destruct (Nat.ltb_spec 1 (length c)); [reflexivity|]. destruct (blank b) eqn:EB; [|reflexivity]. exfalso. apply ST. apply blank_iff in EB. rewrite C1; [exact EB|]. rewrite EC in *. cbn [length] in *. lia.
  - cbn [app concat] in *. rewrite <- app_assoc. pose proof (Forall_inv FC) as IC. pose proof (Forall_inv FB) as BC. pose proof (blank_len c BC) as L1.
    destruct (first_byte c (concat (ws ++ rest) ++ [0%N]) IC) as (b & RB & EB0 & C1 & r & EC). rewrite RB. cbn [rbind]. rewrite EB0. rewrite (nbytes_char e c _ IC). cbn [rbind]. rewrite L1. cbn [Nat.ltb Nat.leb].
    rewrite (C1 L1) in BC |- *. rewrite (proj2 (blank_iff b) BC). cbn [app tl]. rewrite (IH rest f (Forall_inv_tail FC) (Forall_inv_tail FB) ST); [reflexivity|]. cbn [length] in L. lia.
Qed.
Lemma strcspn_ok : forall cs rest fuel, Forall (is_char e) (cs ++ rest) -> Forall (fun c => ~ blank_char c) cs -> stops rest blank_char -> length cs < fuel ->
  strcspn fuel e (cstr (concat (cs ++ rest))) = Ok (length (concat cs)).
Proof.
  unfold cstr. induction cs as [|c cs IH]; intros rest fuel FC FB ST L; (destruct fuel as [|f]; [lia|]); cbn [strcspn app].
  - destruct rest as [|c rest]; [reflexivity|]. cbn [app] in FC. cbn [concat]. rewrite <- app_assoc. pose proof (Forall_inv FC) as IC. cbn [stops] in ST. pose proof (blank_len c ST) as L1.
    destruct (first_byte c (concat rest ++ [0%N]) IC) as (b & RB & EB0 & C1 & r & EC). rewrite RB. cbn [rbind]. rewrite EB0. rewrite (nbytes_char e c _ IC). cbn [rbind]. rewrite L1. cbn [Nat.ltb Nat.leb].
    rewrite (C1 L1) in ST. rewrite (proj2 (blank_iff b) ST). reflexivity.
  - cbn [app concat] in *. rewrite <- app_assoc. pose proof (Forall_inv FC) as IC. pose proof (Forall_inv FB) as BC.
    destruct (first_byte c (concat (cs ++ rest) ++ [0%N]) IC) as (b & RB & EB0 & C1 & r & EC). rewrite RB. cbn [rbind]. rewrite EB0. rewrite (nbytes_char e c _ IC). cbn [rbind].
    assert (REC : strcspn f e (concat (cs ++ rest) ++ [0%N]) = Ok (length (concat cs))) by (apply IH; [exact (Forall_inv_tail FC)|exact (Forall_inv_tail FB)|exact ST|cbn [length] in L; lia]).
    destruct (Nat.ltb_spec 1 (length c)).
    + rewrite adv_app. cbn [rbind]. rewrite REC. cbn [rbind]. rewrite app_length. reflexivity.
    + assert (L1 : length c = 1) by (rewrite EC in *; cbn [length] in *; lia). rewrite (C1 L1) in BC |- *. destruct (blank b) eqn:EB; [exfalso; apply BC, blank_iff, EB|]. cbn [app tl]. rewrite REC. reflexivity.
Qed.

Definition good_line (l : list N) : Prop := exists cs, chars_of e l cs /\ Forall high_multibyte cs.
Lemma xnewline_ok cs : Forall (is_char e) cs -> Forall high_multibyte cs -> exists ds, xnewline (concat cs) = concat ds /\ (cs = ds \/ cs = ds ++ [[10%N]]).
Proof.
  intros FC FH. unfold xnewline. destruct cs as [|c0 cs0]; [exists []; split; [reflexivity|left; reflexivity]|].
  destruct (exists_last (l := c0 :: cs0) ltac:(discriminate)) as (ds & c & E). rewrite E in *. rewrite concat_app. cbn [concat]. rewrite app_nil_r.
  apply Forall_app in FC. apply Forall_app in FH. destruct FC as (_ & FC), FH as (_ & FH). pose proof (Forall_inv FC) as (l & r & EC & _ & F). pose proof (Forall_inv FH) as HM.
  destruct (exists_last (l := c)) as (c' & b & E'); [rewrite EC; discriminate|]. rewrite E', app_assoc, last_last, removelast_last.
  destruct (N.eqb_spec b 10) as [->|NE].
  - assert (c' = []) as ->. { destruct c' as [|x c']; [reflexivity|]. exfalso. unfold high_multibyte in HM. rewrite E' in HM. specialize (HM ltac:(rewrite app_length; cbn; lia)). rewrite Forall_app in HM. destruct HM as (_ & HM). pose proof (Forall_inv HM) as HB. cbn beta in HB. lia. }
    exists ds. rewrite app_nil_r. split; [reflexivity|right; reflexivity].
  - exists (ds ++ [c' ++ [b]]). rewrite concat_app. cbn [concat]. rewrite app_nil_r, app_assoc. split; [reflexivity|left; reflexivity].
Qed.
Lemma field0_ok l : good_line l -> exists t, field0 e l = Ok t /\ first_field e l t.
Proof.
  intros (cs & (-> & FC) & FH). destruct (xnewline_ok cs FC FH) as (ds & EX & ED). unfold field0. rewrite EX. cbv zeta.
  assert (FD : Forall (is_char e) ds) by (destruct ED as [->| ->]; [exact FC|apply Forall_app in FC; tauto]).
  destruct (split_run blank_char blank_dec ds) as (ws & r1 & E1 & FW & S1).
  destruct (split_run (fun c => ~ blank_char c) (fun c => match blank_dec c with or_introl h => or_intror (fun k => k h) | or_intror h => or_introl h end) r1) as (ts & r2 & E2 & FT & S2).
  subst r1. rewrite E1 in *. rewrite (strspn_ok ws (ts ++ r2)); [|exact FD|exact FW|exact S1|unfold cstr; rewrite app_length, concat_app, app_length; pose proof (concat_len e ws ltac:(apply Forall_app in FD; tauto)); cbn [length]; lia].
  cbn [rbind].
  assert (LW : length ws = length (concat ws)). { clear - FW. induction FW as [|c ws H FW IH]; [reflexivity|]. cbn [concat length]. rewrite app_length, (blank_len c H). cbn. lia. }
  unfold cstr at 1. rewrite concat_app, <- app_assoc, LW, adv_app. cbn [rbind]. change (concat (ts ++ r2) ++ [0%N]) with (cstr (concat (ts ++ r2))).
  apply Forall_app in FD. destruct FD as (FD1 & FD2).
  rewrite (strcspn_ok ts r2); [|exact FD2|exact FT| |unfold cstr; rewrite app_length, concat_app, app_length; pose proof (concat_len e ts ltac:(apply Forall_app in FD2; tauto)); cbn [length]; lia].
  - cbn [rbind]. eexists. split; [reflexivity|]. unfold cstr. rewrite concat_app, <- app_assoc, firstn_app, Nat.sub_diag, firstn_O, app_nil_r, firstn_all.
    assert (S3 : stops r2 blank_char) by (destruct r2 as [|c r2]; [exact I|destruct (blank_dec c); [assumption|cbn [stops] in S2; tauto]]).
    destruct ED as [->| ->].
    + exists ws, ts, r2. split; [split; [reflexivity|exact FC]|]. auto.
    + exists ws, ts, (r2 ++ [[10%N]]). split; [split; [f_equal; rewrite <- !app_assoc; reflexivity|rewrite <- !app_assoc in FC; exact FC]|]. split; [exact FW|]. split; [exact FT|]. split; [|reflexivity].
      destruct r2; [cbn; right; right; reflexivity|exact S3].
  - destruct r2 as [|c r2]; [exact I|]. destruct (blank_dec c); [assumption|cbn [stops] in S2; tauto].
Qed.
Lemma fields_ok ls : Forall good_line ls -> exists lex, fields e ls = Ok lex /\ Forall2 (first_field e) ls lex.
Proof.
  induction 1 as [|l ls H F (lex & E & FF)]; [exists []; split; [reflexivity|constructor]|]. destruct (field0_ok l H) as (t & ET & FT). exists (t :: lex). cbn [fields]. rewrite ET. cbn [rbind]. rewrite E. split; [reflexivity|constructor; assumption].
Qed.
End Load.
