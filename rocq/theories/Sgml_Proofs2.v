(** Tags: what [add_tag] and [get_attrib] find. *)
From Coq Require Import String Ascii.
From Coq Require Import List ZArith NArith Arith Bool Lia.
From Verif Require Import Base Text_Model Text_Spec Text_Proofs1 Sgml_Model Sgml_Spec Sgml_Proofs1.
From Verif Require Read_Model Word_Model Scores_Model.
Import ListNotations.
Local Open Scope res_scope.
Local Open Scope list_scope.

Lemma B_inj s t : B s = B t -> s = t.
Proof.
  intros H. rewrite <- (string_of_list_ascii_of_string s), <- (string_of_list_ascii_of_string t). f_equal.
  unfold B in H. revert H. generalize (list_ascii_of_string s) (list_ascii_of_string t).
  induction l as [|a l IH]; intros [|b m]; cbn; intros H; try discriminate; [reflexivity|].
  injection H as H1 H2. f_equal; [|apply IH; exact H2].
  rewrite <- (ascii_N_embedding a), <- (ascii_N_embedding b), H1. reflexivity.
Qed.

Definition nameb (b : N) : bool := ((33 <=? b) && (b <? 127) && negb (b =? 61) && negb (b =? 62) && negb (b =? 34))%N.
Definition okname (n : string) : bool := match B n with [] => false | b :: r => forallb nameb (b :: r) end.
Lemma nameb_plain b : nameb b = true -> (33 <= b < 127)%N /\ b <> 61%N /\ b <> 62%N /\ b <> 34%N.
Proof.
  unfold nameb. rewrite !andb_true_iff, !negb_true_iff, !N.eqb_neq, N.leb_le, N.ltb_lt. tauto.
Qed.
Lemma okname_bytes n : okname n = true -> B n <> [] /\ Forall (fun b => (33 <= b < 127)%N /\ b <> 61%N /\ b <> 62%N /\ b <> 34%N) (B n).
Proof.
  unfold okname. destruct (B n) as [|b r]; [discriminate|]. intros H. split; [discriminate|]. rewrite forallb_forall in H.
  apply Forall_forall. intros x Hx. apply nameb_plain. apply H. exact Hx.
Qed.
Lemma okname_text e n : okname n = true -> text e (B n).
Proof.
  intros H. apply okname_bytes in H as [_ H]. apply text_plain. apply forallb_forall. intros b Hb. rewrite Forall_forall in H.
  specialize (H b Hb). unfold plain. apply andb_true_iff. split; apply N.ltb_lt; lia.
Qed.

Definition atts := list (string * str).
Definition tagtext (L : atts) : str := concat (map (fun x => attr (fst x) (snd x)) L).
Definition pairs (L : atts) : list (str * str) := map (fun x => (B (fst x), snd x)) L.
Definition okatt (e : enc) (x : string * str) : Prop := okname (fst x) = true /\ field e (snd x).
Lemma tagtext_app a b : tagtext (a ++ b) = tagtext a ++ tagtext b.
Proof. unfold tagtext. rewrite map_app, concat_app. reflexivity. Qed.

Lemma field_no0 e s : field e s -> ~ In 0%N s.
Proof. intros (H & _). exact (text_no0 e s H). Qed.

Local Opaque adv.
Lemma attrib_step e n v M acc f : okname n = true -> field e v -> length acc < 30 ->
  attribs (S f) e (B n ++ 61%N :: 34%N :: v ++ 34%N :: M) acc =
  let* k := strspn e (B " " ++ [9%N] ++ NL ++ B ">") M in
  let* b := adv k M in attribs f e b (acc ++ [(B n, v)]).
Proof.
  intros Hn Hv Ha. pose proof (okname_bytes n Hn) as [NE NB]. cbn [attribs].
  assert (HB : exists b r, B n = b :: r /\ (33 <= b < 127)%N).
  { destruct (B n) as [|b r]; [congruence|]. inversion NB; subst. exists b, r. split; [reflexivity|tauto]. }
  destruct HB as (b & r & EB & Hb).
  assert (E1 : forall x, rd (B n ++ x) = Ok b) by (intros x; rewrite EB; reflexivity). rewrite E1. cbn [rbind].
  destruct (N.eqb_spec b 0); [lia|].
  assert (E2 : forall x, strspn e (B " " ++ [9%N] ++ NL) (B n ++ x) = Ok 0).
  { intros x. rewrite EB. cbn [app]. apply strspn_out; [lia|right]. cbn.
    repeat (match goal with |- context [(?x =? ?y)%N] => destruct (N.eqb_spec x y); [lia|] end); reflexivity. }
  rewrite E2. cbn [rbind]. change (adv 0) with (fun m : mem => Ok m). cbv beta. cbn [rbind].
  rewrite (strcspn_ok e (B "=" ++ NL) (B n)); [|reflexivity|apply okname_text; exact Hn| |].
  2:{ intros x Hx Hin. rewrite Forall_forall in NB. specialize (NB x Hin). cbn in Hx. rewrite !orb_true_iff, !N.eqb_eq in Hx.
      destruct Hx as [Hx|[Hx|Hx]]; [lia|lia|discriminate]. }
  2:{ exists 61%N. eexists. split; [reflexivity|]. split; [lia|right; reflexivity]. }
  cbn [rbind]. destruct (Nat.eqb_spec (length (B n)) 0) as [E0|_]; [rewrite EB in E0; discriminate|].
  destruct (Nat.leb_spec 30 (length acc)); [lia|].
  rewrite bdup_ok by (apply text_no0 with e, okname_text, Hn). cbn [rbind]. rewrite adv_plus. cbn [rbind rd]. rewrite adv1. cbn [rbind].
  change (34 =? 34)%N with true. cbn [negb].
  rewrite (strcspn_ok e QUOTE v); [|reflexivity|apply Hv| |].
  2:{ intros x Hx Hin. cbn in Hx. rewrite orb_false_r in Hx. apply N.eqb_eq in Hx. subst x. exact (proj1 (proj2 Hv) Hin). }
  2:{ exists 34%N. eexists. split; [reflexivity|]. split; [lia|right; reflexivity]. }
  cbn [rbind]. assert (HR : exists c, rd (v ++ 34%N :: M) = Ok c /\ (length v = 0 -> c = 34%N)).
  { destruct v as [|c v0]; eexists; (split; [reflexivity|]); cbn; intros; lia. }
  destruct HR as (c & -> & Hc). cbn [rbind].
  assert ((length v =? 0) && negb (c =? 34)%N = false) as ->.
  { destruct (Nat.eqb_spec (length v) 0) as [E0|E0]; [rewrite (Hc E0)|]; reflexivity. }
  rewrite bdup_ok by (apply field_no0 with e, Hv). cbn [rbind]. rewrite adv_plus. reflexivity.
Qed.
Lemma attribs_ok e L : forall acc f n v, okname n = true -> field e v -> Forall (okatt e) L ->
  length acc + S (length L) <= 30 -> S (length L) < f ->
  attribs f e (B n ++ 61%N :: 34%N :: v ++ 34%N :: tagtext L ++ B ">" ++ NL ++ [0%N]) acc = Ok (Some (acc ++ (B n, v) :: pairs L)).
Proof.
  induction L as [|[n' v'] L IH]; intros acc f n v Hn Hv HL Ha Hf; (destruct f as [|f]; [cbn in Hf; lia|]);
    (rewrite attrib_step by (try assumption; cbn [length] in Ha; lia)).
  - change (tagtext [] ++ B ">" ++ NL ++ [0%N]) with [62%N; 10%N; 0%N].
    rewrite strspn_in by (lia || reflexivity). rewrite strspn_in by (lia || reflexivity). rewrite strspn_out by (lia || (left; reflexivity)).
    cbn [rbind]. change (adv 2 [62%N; 10%N; 0%N]) with (Ok [0%N]). cbn [rbind].
    destruct f as [|f]; [cbn in Hf; lia|]. reflexivity.
  - inversion HL as [|? ? [Hn' Hv'] HL']; subst. cbn [fst snd] in Hn', Hv'.
    pose proof (okname_bytes n' Hn') as [NE' NB'].
    assert (HB : exists b' r', B n' = b' :: r' /\ (33 <= b' < 127)%N /\ b' <> 62%N).
    { destruct (B n') as [|b' r']; [congruence|]. inversion NB'; subst. exists b', r'. split; [reflexivity|tauto]. }
    destruct HB as (b' & r' & EB' & Hb').
    change (tagtext ((n', v') :: L)) with (attr n' v' ++ tagtext L). unfold attr. rewrite <- !app_assoc.
    match goal with |- context [B " " ++ B n' ++ ?x] => change (B " " ++ B n' ++ x) with (32%N :: B n' ++ x) end.
    rewrite strspn_in by (lia || reflexivity).
    match goal with |- context [strspn e ?a (B n' ++ ?x)] => replace (strspn e a (B n' ++ x)) with (@Ok nat 0) end.
    2:{ rewrite EB'. cbn [app]. symmetry. apply strspn_out; [lia|right]. cbn.
        repeat (match goal with |- context [(?x =? ?y)%N] => destruct (N.eqb_spec x y); [lia|] end); reflexivity. }
    cbn [rbind]. rewrite adv1. cbn [rbind].
    match goal with |- context [B "=" ++ QUOTE ++ v' ++ QUOTE ++ ?x] => change (B "=" ++ QUOTE ++ v' ++ QUOTE ++ x) with (61%N :: 34%N :: v' ++ 34%N :: x) end.
    rewrite IH; [rewrite <- app_assoc; reflexivity|exact Hn'|exact Hv'|exact HL'|rewrite app_length; cbn [length] in *; lia|cbn [length] in Hf; lia].
Qed.

Lemma add_tag_ok e tags name n v L : length tags < 10 -> forallb nameb (B name) = true -> Forall (okatt e) ((n, v) :: L) -> S (length L) <= 30 ->
  add_tag e tags (cstr (B "<" ++ B name ++ tagtext ((n, v) :: L) ++ B ">" ++ NL)) = Ok (Some ((B name, pairs ((n, v) :: L)) :: tags)).
Proof.
  intros HT HN HL Hl. unfold add_tag. destruct (Nat.leb_spec 10 (length tags)); [lia|].
  inversion HL as [|? ? [Hn Hv] HL']; subst. cbn [fst snd] in *.
  change (tagtext ((n, v) :: L)) with (attr n v ++ tagtext L). unfold attr, cstr. rewrite <- !app_assoc.
  match goal with |- context [B "<" ++ ?x] => change (B "<" ++ x) with (60%N :: x) end. rewrite adv1. cbn [rbind].
  match goal with |- context [B " " ++ ?x] => change (B " " ++ x) with (32%N :: x) end.
  assert (H0 : ~ In 32%N (B name) /\ ~ In 0%N (B name)).
  { rewrite forallb_forall in HN. split; intro I; specialize (HN _ I); discriminate. }
  rewrite strchr_found by tauto. cbn [rbind]. rewrite bdup_ok by tauto. cbn [rbind]. rewrite adv_plus. cbn [rbind].
  match goal with |- context [B "=" ++ QUOTE ++ v ++ QUOTE ++ ?x] => change (B "=" ++ QUOTE ++ v ++ QUOTE ++ x) with (61%N :: 34%N :: v ++ 34%N :: x) end.
  rewrite (attribs_ok e L []); [reflexivity|exact Hn|exact Hv|exact HL'|cbn; lia|].
  rewrite app_length. cbn [length]. rewrite app_length. cbn [length]. rewrite !app_length. assert (length L <= length (tagtext L)).
  { clear. induction L as [|[n v] L IH]; [reflexivity|]. change (tagtext ((n, v) :: L)) with (attr n v ++ tagtext L). rewrite app_length. unfold attr. rewrite app_length. cbn. lia. }
  lia.
Qed.

(** ** Attributes *)
Fixpoint lk (L : atts) (n : string) : option str :=
  match L with [] => None | (k, v) :: r => if String.eqb k n then Some v else lk r n end.
Definition dflt (s : option str) : str := match s with Some s => s | None => [] end.
Lemma get_attrib_ok e L n : Forall (okatt e) L -> okname n = true -> get_attrib e (pairs L) (B n) = Ok (dflt (lk L n)).
Proof.
  intros HL Hn. induction HL as [|[k v] L [Hk _] HL IH]; [reflexivity|]. cbn [pairs map get_attrib lk fst snd] in *.
  rewrite teq_ok by (apply okname_text; assumption). cbn [rbind]. destruct (String.eqb_spec k n) as [->|NE].
  - rewrite same_refl. reflexivity.
  - rewrite same_neq; [exact IH|]. intro E. apply NE. apply B_inj. exact E.
Qed.
Lemma lk_app a b n : lk (a ++ b) n = match lk a n with Some v => Some v | None => lk b n end.
Proof. induction a as [|[k v] a IH]; [reflexivity|]. cbn [app lk]. destruct (String.eqb k n); [reflexivity|exact IH]. Qed.

Lemma given_ok e L n : Forall (okatt e) L -> okname n = true ->
  given e (pairs L) n = Ok (match dflt (lk L n) with [] => false | _ => true end).
Proof.
  intros HL Hn. unfold given. rewrite get_attrib_ok by assumption. cbn [rbind].
  rewrite teq_ok; [|destruct (lk L n) as [v|] eqn:E; [|apply text_nil]|apply text_nil].
  - cbn [rbind]. destruct (dflt (lk L n)); reflexivity.
  - cbn [dflt]. clear - HL E. induction HL as [|[k w] L [_ Hw] HL IH]; [discriminate|]. cbn [lk] in E.
    destruct (String.eqb k n); [injection E as <-; apply Hw|exact (IH E)].
Qed.
Lemma lk_field e L n v : Forall (okatt e) L -> lk L n = Some v -> field e v.
Proof.
  intros HL E. induction HL as [|[k w] L [_ Hw] HL IH]; [discriminate|]. cbn [lk] in E.
  destruct (String.eqb k n); [injection E as <-; exact Hw|exact (IH E)].
Qed.
Lemma dflt_text e L n : Forall (okatt e) L -> text e (dflt (lk L n)).
Proof. intros HL. destruct (lk L n) as [v|] eqn:E; [apply (lk_field e L n v HL E)|apply text_nil]. Qed.
Lemma opt_text_ok e L n : Forall (okatt e) L -> okname n = true ->
  opt_text e (pairs L) n = Ok (or_none (lk L n)).
Proof.
  intros HL Hn. unfold opt_text. rewrite get_attrib_ok by assumption. cbn [rbind].
  rewrite teq_ok; [|apply dflt_text; exact HL|apply text_nil]. cbn [rbind]. destruct (lk L n) as [[|c v]|]; reflexivity.
Qed.
Lemma time_attr_ok e L n k z : Forall (okatt e) L -> okname n = true ->
  lk L n = (if k : bool then Some (fixed 3 z) else None) ->
  time_attr e (pairs L) n = Ok (if k then Some z else None).
Proof.
  intros HL Hn E. unfold time_attr. rewrite get_attrib_ok by assumption. cbn [rbind].
  rewrite teq_ok; [|apply dflt_text; exact HL|apply text_nil]. cbn [rbind]. rewrite E. destruct k; [|reflexivity]. cbn [dflt].
  rewrite same_neq; [|intro F; unfold fixed in F; cbv zeta in F; apply app_eq_nil in F as [_ F]; apply app_eq_nil in F as [_ F]; discriminate].
  rewrite atof_in_fixed. reflexivity.
Qed.

(** ** Texts between quotes *)
Lemma field_plain e s : forallb (fun b => plain b && negb (b =? 34)%N && negb (b =? 10)%N) s = true -> field e s.
Proof.
  intros H. assert (H' : forall b, In b s -> plain b = true /\ b <> 34%N /\ b <> 10%N).
  { intros b Hb. rewrite forallb_forall in H. specialize (H b Hb). rewrite !andb_true_iff, !negb_true_iff, !N.eqb_neq in H. tauto. }
  split; [apply text_plain; apply forallb_forall; intros b Hb; apply H'; exact Hb|]. split; intro I; apply H' in I; tauto.
Qed.
Lemma field_numeric e s : Forall numeric s -> field e s.
Proof.
  intros H. apply field_plain. apply forallb_forall. intros b Hb. rewrite Forall_forall in H. specialize (H b Hb).
  unfold numeric, isd in H. unfold plain. rewrite !andb_true_iff, !negb_true_iff, !N.eqb_neq, !N.ltb_lt. lia.
Qed.
Lemma field_app e a b : field e a -> field e b -> field e (a ++ b).
Proof.
  intros (A1 & A2 & A3) (B1 & B2 & B3). split; [apply text_app; assumption|]. split; intro I; apply in_app_or in I; tauto.
Qed.
