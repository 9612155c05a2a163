(** The lines of a report, and the whole of it. *)
From Coq Require Import String Ascii.
From Coq Require Import List ZArith NArith Arith Bool Lia.
From Verif Require Import Base Text_Model Text_Spec Text_Proofs1 Sgml_Model Sgml_Spec Sgml_Proofs1 Sgml_Proofs2 Sgml_Proofs3 Sgml_Proofs4.
From Verif Require Read_Model Read_Proofs3 Word_Model Scores_Model.
Import ListNotations.
Local Open Scope res_scope.
Local Open Scope list_scope.

(** ** Tokens *)
Inductive qtext (set : str) : str -> Prop :=
| qt_nil : qtext set []
| qt_plain b x : (0 < b < 128)%N -> b <> 34%N -> in_set set b = false -> qtext set x -> qtext set (b :: x)
| qt_quoted v x : ~ In 34%N v -> ~ In 0%N v -> qtext set x -> qtext set (34%N :: v ++ 34%N :: x).
Lemma qtext_app set a b : qtext set a -> qtext set b -> qtext set (a ++ b).
Proof.
  intros HA HB. induction HA; cbn [app]; [exact HB|constructor; assumption|].
  rewrite <- app_assoc. cbn [app]. constructor; assumption.
Qed.
Lemma qtext_plain set s : forallb (fun b => plain b && negb (b =? 34)%N && negb (in_set set b)) s = true -> qtext set s.
Proof.
  induction s as [|b s IH]; [constructor|]. cbn [forallb]. rewrite andb_true_iff. intros [H1 H2]. rewrite !andb_true_iff, !negb_true_iff in H1.
  destruct H1 as [[H1 H3] H4]. unfold plain in H1. rewrite andb_true_iff, !N.ltb_lt in H1. apply N.eqb_neq in H3. constructor; auto.
Qed.
Lemma qscan_ok e set x m : qtext set x -> stops set m -> in_set set 34 = false -> forall f, length x < f -> qscan f e set (x ++ m) = Ok (length x).
Proof.
  intros HQ (b & r & -> & L & Hb) H34. assert (Hb34 : b <> 34%N) by (destruct Hb; [lia|congruence]).
  induction HQ as [|c x Hc N34 HN HQ IH|v x N34 N0 HQ IH]; intros f Hf; (destruct f as [|f]; [cbn in Hf; lia|]); cbn [qscan app rd rbind length].
  - destruct (N.eqb_spec b 0); [reflexivity|]. rewrite nb1 by exact L. cbn [rbind]. change (1 <? 1) with false. cbv iota.
    destruct (N.eqb_spec b 34); [contradiction|]. destruct Hb as [Hb|Hb]; [contradiction|rewrite Hb; reflexivity].
  - destruct (N.eqb_spec c 0); [lia|]. rewrite nb1 by lia. cbn [rbind]. change (1 <? 1) with false. cbv iota.
    destruct (N.eqb_spec c 34); [contradiction|]. rewrite HN. cbn [tl]. rewrite IH; [reflexivity|cbn [length] in Hf; lia].
  - change (34 =? 0)%N with false. cbv iota. rewrite nb1 by lia. cbn [rbind]. change (1 <? 1) with false. change (34 =? 34)%N with true. cbv iota. cbn [tl].
    rewrite <- app_assoc. cbn [app]. rewrite strchr_found by assumption. cbn [rbind].
    replace (34%N :: v ++ 34%N :: x ++ b :: r) with ((34%N :: v ++ [34%N]) ++ x ++ b :: r) by (cbn [app]; rewrite <- app_assoc; reflexivity).
    replace (length v + 2) with (length (34%N :: v ++ [34%N])) by (cbn [length]; rewrite app_length; cbn; lia).
    rewrite adv_app. cbn [rbind]. cbn [length] in Hf. rewrite app_length in Hf. cbn [length] in Hf.
    rewrite IH by lia. cbn [rbind length]. rewrite !app_length. cbn [length]. f_equal. lia.
Qed.
Definition sep : str := B ":" ++ NL.
Lemma strqtok_ok e x b r T : qtext sep x -> (exists c y, x = c :: y /\ (0 < c < 128)%N /\ in_set sep c = false) ->
  (b < 128)%N -> b <> 0%N -> in_set sep b = true -> length x < length T ->
  strqtok e sep (x ++ b :: r) T = Ok (Some (x ++ 0%N :: skipn (S (length x)) T, r)).
Proof.
  intros HQ (c & y & EX & Hc & Nc) L NZ Hb HT. unfold strqtok.
  assert (E1 : strspn e sep (x ++ b :: r) = Ok 0) by (rewrite EX; cbn [app]; apply strspn_out; [lia|right; exact Nc]).
  rewrite E1. cbn [rbind]. change (adv 0 ?m) with (Ok m). replace (adv 0 (x ++ b :: r)) with (@Ok mem (x ++ b :: r)) by reflexivity. cbn [rbind].
  assert (E2 : rd (x ++ b :: r) = Ok c) by (rewrite EX; reflexivity). rewrite E2. cbn [rbind]. destruct (N.eqb_spec c 0); [lia|].
  rewrite qscan_ok; [|exact HQ|exists b, r; auto|reflexivity|rewrite app_length; cbn; lia]. cbn [rbind].
  rewrite app_length. cbn [length]. destruct (Nat.leb_spec (length x) (length x + S (length r))); [|lia]. cbn [rbind].
  destruct (Nat.ltb_spec (length x) (length T)); [|lia]. cbn [rbind]. rewrite adv_app. cbn [rbind rd].
  destruct (N.eqb_spec b 0); [contradiction|]. rewrite firstn_app, Nat.sub_diag, firstn_all. cbn [firstn tl]. rewrite app_nil_r. reflexivity.
Qed.
Lemma etext_q e fl x : entry_ok e x -> qtext sep (etext fl x).
Proof.
  intros HX. unfold etext. apply qtext_app.
  - assert (Q : forall w, side_ok e w -> qtext sep (quoted (shown_side w))).
    { intros w (y & -> & Hy). unfold quoted, QUOTE. cbn [app shown_side]. constructor; [| |constructor]; intro I; apply (shown_word_safe e y _ Hy) in I; tauto. }
    unfold head, entry_ok in *. destruct (en_ev x); try contradiction;
      repeat first [apply Q; solve [exact HX | apply HX] | apply qtext_plain; reflexivity | apply qtext_app].
  - unfold items. generalize (kinds fl). intros l. induction l as [|a l IH]; [constructor|]. cbn [map concat]. apply qtext_app; [|exact IH].
    apply qtext_plain. cbn [forallb]. apply andb_true_iff. split; [reflexivity|]. apply forallb_forall. intros b Hb.
    pose proof (item_bytes x a) as F. rewrite Forall_forall in F. specialize (F b Hb). unfold numeric, isd in F.
    rewrite !andb_true_iff, !negb_true_iff. repeat split; [unfold plain; apply andb_true_iff; split; apply N.ltb_lt; lia|apply N.eqb_neq; lia|].
    cbn. repeat (match goal with |- context [(?x =? ?y)%N] => destruct (N.eqb_spec x y); [lia|] end). reflexivity.
Qed.
Lemma etext_head fl x : exists c y, etext fl x = c :: y /\ (0 < c < 128)%N /\ in_set sep c = false /\ c <> 60%N.
Proof. unfold etext, head. destruct (en_ev x); cbn; eexists; eexists; (split; [reflexivity|]); (split; [lia|]); (split; [reflexivity|discriminate]). Qed.

(** ** The line of a path *)
Fixpoint dtail (fl : flags) (l : list entry) : str :=
  match l with [] => [] | x :: r => etext fl x ++ (match r with [] => 10%N | _ => 58%N end) :: dtail fl r end.
Definition data (fl : flags) (l : list entry) : str := match l with [] => NL | _ => dtail fl l end.
Lemma entries_text_ok e fl l : Forall (entry_ok e) l -> exists t, entries_text fl (B ":") (B ",") l = Ok t /\ t ++ NL = data fl l.
Proof.
  intros H. induction H as [|x l Hx Hl IH]; [exists []; split; reflexivity|]. destruct l as [|y l].
  - exists (etext fl x). split; [apply (entry_text_ok e); exact Hx|]. reflexivity.
  - destruct IH as (t & Et & Ed). exists (etext fl x ++ B ":" ++ t). split.
    + change (entries_text fl (B ":") (B ",") (x :: y :: l)) with
        (let* t := entry_text fl (B ",") x in let* u := entries_text fl (B ":") (B ",") (y :: l) in Ok (t ++ B ":" ++ u)).
      rewrite (entry_text_ok e) by exact Hx. cbn [rbind]. rewrite Et. reflexivity.
    + rewrite <- !app_assoc, Ed. reflexivity.
Qed.
Definition with_set (o : opath) (l : list entry) : opath :=
  let p := o_path o in
  {| o_path := {| pa_id := pa_id p; pa_labels := pa_labels p; pa_file := pa_file p; pa_channel := pa_channel p;
                  pa_seq := pa_seq p; pa_flags := pa_flags p; pa_rt1 := pa_rt1 p; pa_rt2 := pa_rt2 p;
                  pa_ht1 := pa_ht1 p; pa_ht2 := pa_ht2 p; pa_set := l |}; o_max := o_max o |}.
Lemma read_tail e fl fields l : (kinds fl = [] \/ fields = kinds fl) -> Forall (entry_ok e) l ->
  forall f T o, length l < f -> length (dtail fl l) < length T -> length (pa_set (o_path o)) + length l <= o_max o ->
  read_data f e (cstr (dtail fl l)) T fields o = Ok (with_set o (pa_set (o_path o) ++ map (entry_read fl) l)).
Proof.
  intros HF HL. induction HL as [|x l Hx HL IH]; intros f T o Hf HT HO; (destruct f as [|f]; [cbn in Hf; lia|]); cbn [read_data].
  - cbn. rewrite app_nil_r. destruct o as [p m]. destruct p. reflexivity.
  - change (dtail fl (x :: l)) with (etext fl x ++ (match l with [] => 10%N | _ => 58%N end) :: dtail fl l) in *.
    set (b := match l with [] => 10%N | _ => 58%N end) in *.
    assert (Hb : (b < 128)%N /\ b <> 0%N /\ in_set sep b = true) by (subst b; destruct l; repeat split; lia || discriminate).
    rewrite app_length in HT. cbn [length] in HT, Hf, HO.
    unfold cstr. rewrite <- app_assoc. cbn [app].
    destruct (etext_head fl x) as (c & y & EX & Hc & Nc & _).
    rewrite strqtok_ok; [|apply (etext_q e); exact Hx|exists c, y; auto|apply Hb|apply Hb|apply Hb|lia]. cbn [rbind].
    rewrite (read_entry_ok e) by assumption. cbn [rbind]. unfold push. destruct (Nat.ltb_spec (length (pa_set (o_path o))) (o_max o)); [|lia]. cbn [rbind].
    change (dtail fl l ++ [0%N]) with (cstr (dtail fl l)). rewrite IH.
    + cbn [pa_set o_path with_set]. rewrite <- app_assoc. reflexivity.
    + lia.
    + rewrite app_length. cbn [length]. rewrite skipn_length. lia.
    + cbn [pa_set o_path o_max]. rewrite app_length. cbn [length]. lia.
Qed.
Lemma dtail_len fl l : length l <= length (dtail fl l).
Proof. induction l as [|x l IH]; [reflexivity|]. cbn [dtail length]. rewrite app_length. cbn [length]. lia. Qed.

(** ** Lines *)
Section lines.
  Variables (e : enc) (maxn : nat).
  Inductive Runs : state -> str -> state -> Prop :=
  | run_nil st : Runs st [] st
  | run_line st x st' r st'' : ~ In 10%N x -> read_line e maxn st (x ++ NL) = Ok st' -> Runs st' r st'' -> Runs st (x ++ NL ++ r) st''.
  Lemma Runs_app a x b y c : Runs a x b -> Runs b y c -> Runs a (x ++ y) c.
  Proof.
    intros H K. induction H as [|st x st' r st'' N E H IH]; [exact K|]. rewrite <- !app_assoc. econstructor; [exact N|exact E|]. apply IH. exact K.
  Qed.
  Lemma Runs_one st x st' : ~ In 10%N x -> read_line e maxn st (x ++ NL) = Ok st' -> Runs st (x ++ NL) st'.
  Proof. intros N E. rewrite <- (app_nil_r (x ++ NL)), <- app_assoc. econstructor; [exact N|exact E|constructor]. Qed.
  Lemma load_line f x r st : ~ In 10%N x ->
    load_loop (S f) e maxn {| Read_Model.rest := x ++ NL ++ r; Read_Model.feof := false |} st =
    let* st' := read_line e maxn st (x ++ NL) in load_loop f e maxn {| Read_Model.rest := r; Read_Model.feof := false |} st'.
  Proof.
    intros N. cbn [load_loop Read_Model.feof]. unfold Read_Model.get_line. cbn [Read_Model.rest].
    assert (E : x ++ NL ++ r = x ++ 10%N :: r) by reflexivity. rewrite E.
    destruct (x ++ 10%N :: r) as [|c q] eqn:EQ; [destruct x; discriminate|]. rewrite <- EQ.
    rewrite Read_Proofs3.split_newline by (apply Forall_forall; intros z Hz ->; contradiction).
    cbn [Read_Model.feof orb]. rewrite last_last. reflexivity.
  Qed.
  Lemma Runs_prefix st x st' : Runs st x st' -> forall y f, length x + length y < f ->
    exists f', length y < f' /\
    load_loop f e maxn {| Read_Model.rest := x ++ y; Read_Model.feof := false |} st = load_loop f' e maxn {| Read_Model.rest := y; Read_Model.feof := false |} st'.
  Proof.
    intros H. induction H as [|st x st' r st'' N E H IH]; intros y f Hf; [exists f; split; [cbn in Hf; lia|reflexivity]|].
    destruct f as [|f]; [lia|]. rewrite <- !app_assoc. rewrite load_line by exact N. rewrite E. cbn [rbind]. apply IH.
    rewrite !app_length in Hf. cbn [length NL] in Hf. lia.
  Qed.
  Lemma Runs_load st x st' f : Runs st x st' -> length x < f ->
    load_loop f e maxn {| Read_Model.rest := x; Read_Model.feof := false |} st = Ok st'.
  Proof.
    intros H Hf. destruct (Runs_prefix st x st' H [] f) as (f' & L & E); [cbn; lia|]. rewrite app_nil_r in E. rewrite E.
    destruct f'; [cbn in L; lia|]. reflexivity.
  Qed.

End lines.
