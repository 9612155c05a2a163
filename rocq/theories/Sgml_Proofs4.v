(** The entries of a path, written and read. *)
From Coq Require Import String Ascii.
From Coq Require Import List ZArith NArith Arith Bool Lia.
From Verif Require Import Base Text_Model Text_Spec Text_Proofs1 Sgml_Model Sgml_Spec Sgml_Proofs1 Sgml_Proofs2 Sgml_Proofs3.
From Verif Require Read_Model Word_Model Scores_Model.
Import ListNotations.
Local Open Scope res_scope.
Local Open Scope list_scope.

(** ** Words *)
Lemma cstr_holds e s : field e s -> holds (cstr s) s.
Proof. intros H. split; [apply (field_no0 e s H)|exists []; reflexivity]. Qed.
Lemma word_text_ok e w : word_ok e w -> word_text (Some w) = Ok (shown_word w).
Proof.
  intros (H1 & H2 & H3 & H4). unfold word_text, format_word.
  rewrite (escaped_holds _ _ 59 (cstr_holds e _ H1)). cbn [rbind].
  assert (T : forall t, opt_field e t -> escaped (tag_or_empty (option_map cstr t)) 59 = Ok (shown_tag t)).
  { intros [t|] Ht; [|reflexivity]. cbn [option_map tag_or_empty]. rewrite (escaped_holds _ _ 59 (cstr_holds e _ Ht)). reflexivity. }
  change (esc 59 (wd_value w)) with (shown (wd_value w)).
  assert (E : (match option_map cstr (wd_tag1 w), option_map cstr (wd_tag2 w) with
      | None, None => Ok (shown (wd_value w))
      | _, _ => let* t1 := escaped (tag_or_empty (option_map cstr (wd_tag1 w))) 59 in
                let* t2 := escaped (tag_or_empty (option_map cstr (wd_tag2 w))) 59 in
                Ok (shown (wd_value w) ++ [59%N] ++ t1 ++ [59%N] ++ t2) end) = Ok (shown_word w)).
  { rewrite !T by assumption. unfold shown_word. destruct (wd_tag1 w), (wd_tag2 w); cbn [option_map rbind shown_tag]; try reflexivity. rewrite app_nil_r. reflexivity. }
  rewrite E. cbn [rbind]. destruct (N.ltb_spec (N.of_nat (length (shown_word w))) 1000); [reflexivity|lia].
Qed.
Lemma shown_in b s : In b (shown s) -> In b s \/ b = 92%N.
Proof.
  unfold shown. rewrite in_flat_map. intros (x & Hx & H). destruct (N.eqb_spec x 59); cbn in H; intuition congruence.
Qed.
Lemma shown_word_safe e w b : word_ok e w -> In b (shown_word w) -> b <> 34%N /\ b <> 10%N /\ b <> 0%N.
Proof.
  intros (H1 & H2 & H3 & _) I.
  assert (F : forall s, field e s -> In b (shown s) -> b <> 34%N /\ b <> 10%N /\ b <> 0%N).
  { intros s Hs J. apply shown_in in J as [J| ->]; [|lia]. pose proof (field_no0 e s Hs). destruct Hs as (_ & N1 & N2).
    repeat split; intros ->; contradiction. }
  unfold shown_word in I. apply in_app_or in I as [I|I]; [exact (F _ H1 I)|].
  assert (T : forall t, opt_field e t -> In b (shown_tag t) -> b <> 34%N /\ b <> 10%N /\ b <> 0%N).
  { intros [t|] Ht J; [exact (F t Ht J)|destruct J]. }
  destruct (wd_tag1 w) as [t1|] eqn:E1, (wd_tag2 w) as [t2|] eqn:E2; try (destruct I; fail);
    cbn [app] in I; destruct I as [<-|I]; try lia; apply in_app_or in I as [I|I]; try (exact (T _ H2 I));
    cbn [app] in I; destruct I as [<-|I]; try lia; exact (T _ H3 I).
Qed.
Lemma shown_text e s : field e s -> text e (shown s).
Proof.
  intros (HT & _). revert s HT. apply text_ind.
  - apply text_nil.
  - intros b r Hb _ IH. change (shown (b :: r)) with ((if (b =? 59)%N then [92%N; b] else [b]) ++ shown r). apply text_app; [|exact IH].
    apply text_plain. assert (P : plain b = true) by (unfold plain; apply andb_true_iff; split; apply N.ltb_lt; lia).
    destruct (b =? 59)%N; cbn [forallb]; rewrite P; reflexivity.
  - intros c r Hc HL F _ IH. unfold shown in *. rewrite flat_map_app. apply text_app; [|exact IH].
    assert (E : flat_map (fun b => if (b =? 59)%N then [92%N; b] else [b]) c = c).
    { clear - F. induction F as [|b c Hb F IH]; [reflexivity|]. cbn [flat_map]. rewrite IH. destruct (N.eqb_spec b 59); [lia|reflexivity]. }
    rewrite E. exists [c]. split; [split; [cbn; rewrite app_nil_r; reflexivity|constructor; [exact Hc|constructor]]|]. constructor; [|constructor]. intros _. exact F.
  - intros b r Hb Hc _ IH. change (shown (b :: r)) with ((if (b =? 59)%N then [92%N; b] else [b]) ++ shown r).
    destruct (N.eqb_spec b 59); [lia|]. apply text_app; [|exact IH]. exists [[b]]. split; [split; [reflexivity|constructor; [exact Hc|constructor]]|].
    constructor; [|constructor]. intros L. cbn in L. lia.
Qed.

(** ** The text of an entry *)
Definition shown_side (w : option wrd) : str := match w with Some w => shown_word w | None => [] end.
Definition side_item (w : option wrd) (f : wrd -> str) : str := match w with Some w => f w | None => [] end.
Definition item (x : entry) (a : aux) : str :=
  match a with
  | ART => match en_ev x with EI => [] | _ => side_item (en_a x) times_text end
  | AHT => match en_ev x with ED => [] | _ => side_item (en_b x) times_text end
  | ARC => match en_ev x with EI => [] | _ => side_item (en_a x) (fun w => fixed 6 (wd_conf w)) end
  | AHC => match en_ev x with ED => [] | _ => side_item (en_b x) (fun w => fixed 6 (wd_conf w)) end
  | ARW => match en_ev x with EI => [] | _ => side_item (en_a x) (fun w => fixed 6 (wd_weight w)) end
  | AHW => match en_ev x with ED => [] | _ => side_item (en_b x) (fun w => fixed 6 (wd_weight w)) end
  | _ => []
  end.
Definition head (x : entry) : str :=
  match en_ev x with
  | EI => letter EI ++ [44%N; 44%N] ++ quoted (shown_side (en_b x))
  | ED => letter ED ++ [44%N] ++ quoted (shown_side (en_a x)) ++ [44%N]
  | v => letter v ++ [44%N] ++ quoted (shown_side (en_a x)) ++ [44%N] ++ quoted (shown_side (en_b x))
  end.
Definition items (x : entry) (l : list aux) : str := concat (map (fun a => 44%N :: item x a) l).
Definition etext (fl : flags) (x : entry) : str := head x ++ items x (kinds fl).
Lemma items_app x a b : items x (a ++ b) = items x a ++ items x b.
Proof. unfold items. rewrite map_app, concat_app. reflexivity. Qed.
Lemma entry_text_ok e fl x : entry_ok e x -> entry_text fl (B ",") x = Ok (etext fl x).
Proof.
  intros HX. unfold entry_text, entry_head. unfold entry_ok in HX.
  assert (W : forall w, side_ok e w -> word_text w = Ok (shown_side w)).
  { intros w (y & -> & Hy). exact (word_text_ok e y Hy). }
  assert (AT : forall (on absent : bool) w f a, (absent = false -> side_ok e w) ->
     item x a = (if absent then [] else side_item w f) ->
     aux_text (B ",") on absent w f = Ok (items x (if on then [a] else []))).
  { intros on absent w f a Hw Hi. unfold aux_text. destruct on; [|reflexivity]. unfold items. cbn [map concat]. rewrite app_nil_r, Hi.
    destruct absent; [reflexivity|]. destruct (Hw eq_refl) as (y & -> & _). reflexivity. }
  unfold etext, kinds. rewrite !items_app.
  destruct (en_ev x) eqn:EV; try contradiction; cbn [ev_eqb].
  all: try match type of HX with _ /\ _ => destruct HX as [HA HB] end.
  all: rewrite ?W by assumption.
  all: cbn [rbind].
  all: rewrite (AT (f_rwt fl) _ (en_a x) times_text ART) by (try (intros; assumption || discriminate); cbn [item]; rewrite EV; reflexivity).
  all: rewrite (AT (f_hwt fl) _ (en_b x) times_text AHT) by (try (intros; assumption || discriminate); cbn [item]; rewrite EV; reflexivity).
  all: rewrite (AT (f_rconf fl) _ (en_a x) (fun w => fixed 6 (wd_conf w)) ARC) by (try (intros; assumption || discriminate); cbn [item]; rewrite EV; reflexivity).
  all: rewrite (AT (f_hconf fl) _ (en_b x) (fun w => fixed 6 (wd_conf w)) AHC) by (try (intros; assumption || discriminate); cbn [item]; rewrite EV; reflexivity).
  all: rewrite (AT (f_rwgt fl) _ (en_a x) (fun w => fixed 6 (wd_weight w)) ARW) by (try (intros; assumption || discriminate); cbn [item]; rewrite EV; reflexivity).
  all: rewrite (AT (f_hwgt fl) _ (en_b x) (fun w => fixed 6 (wd_weight w)) AHW) by (try (intros; assumption || discriminate); cbn [item]; rewrite EV; reflexivity).
  all: cbn [rbind]; unfold head; rewrite EV; reflexivity.
Qed.

(** ** Reading an entry *)
Lemma times_bytes w : Forall (fun b => numeric b \/ b = 43%N) (times_text w).
Proof.
  unfold times_text. apply Forall_app. split; [eapply Forall_impl; [|apply fixed_bytes]; tauto|].
  apply Forall_app. split; [constructor; [right; reflexivity|constructor]|]. eapply Forall_impl; [|apply fixed_bytes]; tauto.
Qed.
Lemma item_bytes x a : Forall (fun b => numeric b \/ b = 43%N) (item x a).
Proof.
  assert (F : forall k z, Forall (fun b => numeric b \/ b = 43%N) (fixed k z)) by (intros; eapply Forall_impl; [|apply fixed_bytes]; tauto).
  assert (S : forall w f, (forall y, Forall (fun b => numeric b \/ b = 43%N) (f y)) -> Forall (fun b => numeric b \/ b = 43%N) (side_item w f)).
  { intros [w|] f H; [apply H|constructor]. }
  pose proof times_bytes.
  destruct a; cbn [item]; try constructor; destruct (en_ev x); try constructor; apply S; auto.
Qed.
Lemma item_not x a b : ~ numeric b -> b <> 43%N -> ~ In b (item x a).
Proof. intros H1 H2 I. pose proof (item_bytes x a) as F. rewrite Forall_forall in F. destruct (F b I); contradiction. Qed.
Lemma not_num0 : ~ numeric 0%N.  Proof. unfold numeric, isd. lia. Qed.
Lemma not_num44 : ~ numeric 44%N.  Proof. unfold numeric, isd. lia. Qed.

Definition on_side (w : option wrd) (f : wrd -> entry -> entry) (x : entry) : entry := match w with Some w => f w x | None => x end.
(** the effect of one value *)
Definition step (y x : entry) (a : aux) : entry :=
  match a with
  | ART => match en_ev y with EI => x | _ => on_side (en_a y) (fun w x => upd_a x (fun v => set_times v (wd_t1 w) (wd_t2 w))) x end
  | AHT => match en_ev y with ED => x | _ => on_side (en_b y) (fun w x => upd_b x (fun v => set_times v (wd_t1 w) (wd_t2 w))) x end
  | ARC => match en_ev y with EI => x | _ => on_side (en_a y) (fun w x => upd_a x (fun v => set_conf v (wd_conf w))) x end
  | AHC => match en_ev y with ED => x | _ => on_side (en_b y) (fun w x => upd_b x (fun v => set_conf v (wd_conf w))) x end
  | ARW => match en_ev y with EI => x | _ => on_side (en_a y) (fun w x => upd_a x (fun v => set_weight v (wd_weight w))) x end
  | AHW => match en_ev y with ED => x | _ => on_side (en_b y) (fun w x => upd_b x (fun v => set_weight v (wd_weight w))) x end
  | _ => x
  end.
Lemma index_app s c r : ~ In c s -> index (s ++ c :: r) c = Some (length s).
Proof.
  induction s as [|b s IH]; intros H; cbn [app index length]; [rewrite N.eqb_refl; reflexivity|].
  destruct (N.eqb_spec b c) as [->|]; [exfalso; apply H; left; reflexivity|]. rewrite IH; [reflexivity|]. intro I. apply H. right. exact I.
Qed.
Lemma read_times_ok w : read_times 44 (times_text w) = Ok (wd_t1 w, wd_t2 w).
Proof.
  unfold read_times, times_text. change (44%N :: fixed 3 (wd_t1 w) ++ B "+" ++ fixed 3 (wd_t2 w)) with ((44%N :: fixed 3 (wd_t1 w)) ++ 43%N :: fixed 3 (wd_t2 w)).
  rewrite index_app. 2:{ intros [E|I]; [discriminate|]. revert I. apply (numeric_not _ _ (fixed_bytes _ _)). unfold numeric, isd. lia. }
  cbn [length]. rewrite firstn_app, Nat.sub_diag, firstn_all. cbn [firstn]. rewrite app_nil_r, atof_in_fixed. cbn [rbind].
  change (B "+" ++ fixed 3 (wd_t2 w)) with (43%N :: fixed 3 (wd_t2 w)).
  replace (skipn (S (length (fixed 3 (wd_t1 w)))) (fixed 3 (wd_t1 w) ++ 43%N :: fixed 3 (wd_t2 w))) with (fixed 3 (wd_t2 w)).
  { rewrite atof_in_fixed. reflexivity. }
  rewrite skipn_app, skipn_all2 by lia. replace (S (length (fixed 3 (wd_t1 w))) - length (fixed 3 (wd_t1 w))) with 1 by lia. reflexivity.
Qed.
Lemma fixed_ne k z : fixed k z <> [].
Proof. unfold fixed. cbv zeta. intro F. apply app_eq_nil in F as [_ F]. apply app_eq_nil in F as [_ F]. discriminate. Qed.
Lemma aux_value_ok x y a : en_ev x = en_ev y -> item y a <> [] -> aux_value a 44 (item y a) x = Ok (step y x a).
Proof.
  intros EV NE. destruct a; cbn [item step aux_value] in *; try congruence; rewrite EV;
    destruct (en_ev y); cbn [ev_eqb]; try congruence;
    (destruct (en_a y) as [wa|] || idtac); (destruct (en_b y) as [wb|] || idtac); cbn [side_item on_side] in *; try congruence;
    rewrite ?read_times_ok, ?atof_in_fixed; reflexivity.
Qed.
Lemma step_ev x y a : en_ev (step y x a) = en_ev x.
Proof. destruct a; cbn [step]; try reflexivity; destruct (en_ev y); try reflexivity; (destruct (en_a y)); (destruct (en_b y)); reflexivity. Qed.
Lemma step_nil x y a : item y a = [] -> step y x a = x.
Proof.
  intros E. assert (T : forall w, times_text w <> []). { intros w F. unfold times_text in F. apply app_eq_nil in F as [F _]. exact (fixed_ne _ _ F). }
  pose proof fixed_ne as FN.
  destruct a; cbn [item step] in *; try reflexivity; destruct (en_ev y); try reflexivity; (destruct (en_a y)); (destruct (en_b y)); cbn [side_item on_side] in *; try reflexivity;
    exfalso; (eapply T; exact E) || (eapply FN; exact E).
Qed.
Lemma aux_values_ok y j l : forall f x, length l < f -> en_ev x = en_ev y ->
  aux_values f (items y l ++ 0%N :: j) l x = Ok (fold_left (step y) l x).
Proof.
  induction l as [|a l IH]; intros f x Hf EV; (destruct f as [|f]; [cbn in Hf; lia|]); [reflexivity|].
  cbn [aux_values]. change (items y (a :: l)) with (44%N :: item y a ++ items y l). cbn [app rd rbind tl]. change (44 =? 0)%N with false. cbv iota.
  rewrite <- app_assoc. pose proof (item_not y a 44 not_num44 ltac:(discriminate)) as N44. pose proof (item_not y a 0 not_num0 ltac:(discriminate)) as N0.
  assert (EN : exists k, strchr (item y a ++ items y l ++ 0%N :: j) 44 = Ok k /\
    (match k with Some n => Ok n | None => strlen (item y a ++ items y l ++ 0%N :: j) end) = Ok (length (item y a))).
  { destruct l as [|b l].
    - change (items y [] ++ 0%N :: j) with (0%N :: j). exists None. split; [apply strchr_none; (assumption || lia)|apply strlen_ok; assumption].
    - change (items y (b :: l) ++ 0%N :: j) with (44%N :: (item y b ++ items y l) ++ 0%N :: j). eexists. split; [apply strchr_found; assumption|reflexivity]. }
  destruct EN as (k & -> & EN). cbn [rbind]. rewrite EN. cbn [rbind]. rewrite adv_app. cbn [rbind fold_left].
  destruct (length (item y a)) as [|n] eqn:EL.
  - cbn [tl]. rewrite IH; [|cbn [length] in Hf; lia|exact EV]. rewrite step_nil; [reflexivity|]. destruct (item y a); [reflexivity|discriminate].
  - rewrite <- EL. rewrite firstn_app, Nat.sub_diag, firstn_all. cbn [firstn]. rewrite app_nil_r.
    rewrite aux_value_ok; [|exact EV|intro E; rewrite E in EL; discriminate]. cbn [rbind]. apply IH; [cbn [length] in Hf; lia|rewrite step_ev; exact EV].
Qed.

Lemma quoted_word_ok b v m : ~ In 34%N v -> ~ In 0%N v -> quoted_word (b :: 34%N :: v ++ 34%N :: m) = Ok (v, m).
Proof.
  intros H1 H2. unfold quoted_word. rewrite adv1. cbn [rbind rd]. change (34 =? 34)%N with true. cbn [negb]. rewrite adv1. cbn [rbind].
  rewrite strchr_found by assumption. cbn [rbind]. rewrite bdup_ok by assumption. cbn [rbind]. rewrite adv_plus. reflexivity.
Qed.
Definition start (x : entry) : entry :=
  {| en_ev := en_ev x;
     en_a := match en_ev x with EI => None | _ => Some (set_value new_wrd (shown_side (en_a x))) end;
     en_b := match en_ev x with ED => None | _ => Some (set_value new_wrd (shown_side (en_b x))) end |}.
Lemma start_steps e fl x : entry_ok e x -> fold_left (step x) (kinds fl) (start x) = entry_read fl x.
Proof.
  intros HX. unfold entry_ok in HX. destruct x as [v a b]. cbn [en_ev en_a en_b] in *.
  assert (S : forall w, side_ok e w -> exists y, w = Some y) by (intros w (y & -> & _); eauto).
  destruct v; try contradiction;
    repeat match goal with H : _ /\ _ |- _ => destruct H | H : side_ok e _ |- _ => apply S in H as (? & ->) end;
    destruct fl as [? ? [] [] ? ? [] [] [] []];
    repeat match goal with w : wrd |- _ => destruct w end; reflexivity.
Qed.
Lemma read_entry_ok e fl x j fields : entry_ok e x -> (kinds fl = [] \/ fields = kinds fl) ->
  read_entry (etext fl x ++ 0%N :: j) fields = Ok (entry_read fl x).
Proof.
  intros HX HF. rewrite <- (start_steps e fl x HX).
  assert (AV : forall f, length (kinds fl) < f -> (match fields with [] => Ok (start x) | _ => aux_values f (items x (kinds fl) ++ 0%N :: j) fields (start x) end)
      = Ok (fold_left (step x) (kinds fl) (start x))).
  { intros f Hf. destruct HF as [E|E].
    - rewrite E. destruct fields; [reflexivity|]. destruct f; [cbn in Hf; lia|]. reflexivity.
    - rewrite E. destruct (kinds fl) eqn:EK; [reflexivity|]. rewrite <- EK in *. apply aux_values_ok; [exact Hf|reflexivity]. }
  assert (LI : length (kinds fl) <= length (items x (kinds fl))).
  { generalize (kinds fl). intros l. induction l as [|a l IH]; [reflexivity|]. change (items x (a :: l)) with (44%N :: item x a ++ items x l). cbn [length]. rewrite app_length. lia. }
  assert (Q : forall w, side_ok e w -> ~ In 34%N (shown_side w) /\ ~ In 0%N (shown_side w)).
  { intros w (y & -> & Hy). cbn [shown_side]. split; intro I; apply (shown_word_safe e y _ Hy) in I; tauto. }
  unfold read_entry, etext, head, entry_ok, start in *.
  destruct (en_ev x) eqn:EV; try contradiction.
  all: unfold quoted, QUOTE; cbn [letter B map list_ascii_of_string app rd rbind]; rewrite <- ?app_assoc; cbn [app]; rewrite <- ?app_assoc; cbn [app].
  all: match goal with |- context [rd (?c :: ?r)] => change (rd (c :: r)) with (Ok c) | _ => idtac end; cbn [rbind].
  all: match goal with |- context [read_ev ?c] => let v := eval compute in (read_ev c) in change (read_ev c) with v end; cbv iota; rewrite adv1; cbn [rbind].
  all: try match type of HX with _ /\ _ => destruct HX as [HA HB] end.
  - rewrite quoted_word_ok by (apply Q, HA). cbn [rbind]. rewrite quoted_word_ok by (apply Q, HB). cbn [rbind]. apply AV. rewrite app_length. lia.
  - rewrite quoted_word_ok by (apply Q, HA). cbn [rbind]. rewrite quoted_word_ok by (apply Q, HB). cbn [rbind]. apply AV. rewrite app_length. lia.
  - rewrite adv1. cbn [rbind rd]. change (44 =? 44)%N with true. cbn [negb rbind]. rewrite quoted_word_ok by (apply Q, HX). cbn [rbind]. apply AV. rewrite app_length. lia.
  - rewrite quoted_word_ok by (apply Q, HX). cbn [rbind]. rewrite adv1. cbn [rbind].
    assert (R : exists c, rd (items x (kinds fl) ++ 0%N :: j) = Ok c /\ negb (c =? 44)%N && negb (c =? 0)%N = false).
    { destruct (kinds fl) as [|a l]; [exists 0%N; split; reflexivity|]. exists 44%N. split; reflexivity. }
    destruct R as (c & -> & HC). cbn [rbind]. rewrite HC. cbn [rbind]. apply AV. rewrite app_length. lia.
  - rewrite quoted_word_ok by (apply Q, HA). cbn [rbind]. rewrite quoted_word_ok by (apply Q, HB). cbn [rbind]. apply AV. rewrite app_length. lia.
  - rewrite quoted_word_ok by (apply Q, HA). cbn [rbind]. rewrite quoted_word_ok by (apply Q, HB). cbn [rbind]. apply AV. rewrite app_length. lia.
Qed.
