(** The cells of a path, written by asclite and read by sclite. *)
From Coq Require Import String Ascii.
From Coq Require Import List ZArith NArith Arith Bool Lia Permutation.
From Verif Require Import Base Text_Model Text_Spec Text_Proofs1 Sgml_Model Sgml_Spec Sgml_Proofs1 Sgml_Proofs2 Sgml_Proofs3 Sgml_Proofs4 Sgml_Proofs5 Sgml_Proofs6.
From Verif Require Import Arep_Model Arep_Spec.
From Verif Require Read_Model Read_Proofs3 Word_Model Scores_Model.
Import ListNotations.
Local Open Scope res_scope.
Local Open Scope list_scope.

(** ** Words *)
Lemma lower_field e s : field e s -> field e (map lower s).
Proof.
  intros (HT & N1 & N2).
  assert (LW : forall b, In b (map lower s) -> In b s \/ (97 <= b <= 122)%N).
  { intros b I. apply in_map_iff in I as (x & <- & I). unfold lower. destruct (N.leb_spec 65 x), (N.leb_spec x 90); cbn [andb]; auto; right; lia. }
  split; [|split; intro I; apply LW in I as [I|I]; try contradiction; lia]. clear N1 N2 LW. revert s HT. apply text_ind.
  - apply text_nil.
  - intros b r Hb _ IH. cbn [map]. change (lower b :: map lower r) with ([lower b] ++ map lower r). apply text_app; [|exact IH].
    apply text_one. unfold lower. destruct (N.leb_spec 65 b), (N.leb_spec b 90); cbn [andb]; lia.
  - intros c r Hc HL F _ IH. rewrite map_app. apply text_app; [|exact IH].
    assert (E : map lower c = c).
    { clear - F. induction F as [|b c Hb F IH]; [reflexivity|]. cbn [map]. rewrite IH. unfold lower. destruct (N.leb_spec b 90); [lia|]. rewrite andb_false_r. reflexivity. }
    rewrite E. exists [c]. split; [split; [cbn; rewrite app_nil_r; reflexivity|constructor; [exact Hc|constructor]]|]. constructor; [|constructor]. intros _. exact F.
  - intros b r Hb Hc _ IH. cbn [map]. assert (lower b = b) as ->. { unfold lower. destruct (N.leb_spec b 90); [lia|]. rewrite andb_false_r. reflexivity. }
    change (b :: map lower r) with ([b] ++ map lower r). apply text_app; [|exact IH]. exists [[b]]. split; [split; [reflexivity|constructor; [exact Hc|constructor]]|].
    constructor; [|constructor]. intros L. cbn in L. lia.
Qed.
Lemma tok_text_eq o t : tok_text o t = word_shown o t.
Proof.
  unfold tok_text, word_shown. change (fun b => if ((65 <=? b) && (b <=? 90))%N then (b + 32)%N else b) with lower.
  destruct (tk_opt t), (tk_frag t), (o_case o); cbn [app B map list_ascii_of_string]; rewrite ?app_nil_r; rewrite <- ?app_assoc; reflexivity.
Qed.
Lemma shown_field e o t : field e (tk_text t) -> field e (word_shown o t).
Proof.
  intros H. rewrite <- tok_text_eq. unfold tok_text. assert (W : field e (if o_case o then tk_text t else map lower (tk_text t))) by (destruct (o_case o); [exact H|apply lower_field; exact H]).
  repeat apply field_app; try exact W; destruct (tk_opt t), (tk_frag t); apply field_plain; reflexivity.
Qed.
Lemma fld_safe e s b : field e s -> In b s -> b <> 34%N /\ b <> 10%N /\ b <> 0%N.
Proof. intros H I. pose proof (field_no0 e s H). destruct H as (_ & N1 & N2). repeat split; intros ->; contradiction. Qed.

(** ** Auxiliary values *)
Definition akinds (o : opts) (x : auxs) : list aux :=
  (if x_rt x then [ART] else []) ++ (if x_ht x then [AHT] else []) ++ (if x_rc x then [ARC] else []) ++ (if x_hc x then [AHC] else [])
  ++ (if o_spkr o then [ASPKR; AISSUB] else []).
Lemma word_aux_eq o x : word_aux o x = flag_attr (match akinds o x with [] => false | _ => true end) "word_aux" (commas (map (fun a => B (aname a)) (akinds o x))).
Proof. destruct o as [? ? ? []], x as [[] [] [] []]; reflexivity. Qed.
Definition items_of (o : opts) (x : auxs) (r : result) (a h : option tok) : list (aux * str) :=
  (if x_rt x then [(ART, time_text a)] else []) ++ (if x_ht x then [(AHT, time_text h)] else [])
  ++ (if x_rc x then [(ARC, conf_text a)] else []) ++ (if x_hc x then [(AHC, conf_text h)] else [])
  ++ (if o_spkr o then [(ASPKR, spkr_text h); (AISSUB, sub_text r h)] else []).
Lemma items_kinds o x r a h : map fst (items_of o x r a h) = akinds o x.
Proof. unfold items_of, akinds. rewrite !map_app. destruct (x_rt x), (x_ht x), (x_rc x), (x_hc x), (o_spkr o); reflexivity. Qed.
Definition itx (l : list (aux * str)) : str := concat (map (fun p => 44%N :: snd p) l).
Lemma itx_app a b : itx (a ++ b) = itx a ++ itx b.
Proof. unfold itx. rewrite map_app, concat_app. reflexivity. Qed.
Lemma aux_field_itx b a s : aux_field b s = itx (if b then [(a, s)] else []).
Proof. destruct b; [|reflexivity]. cbn. rewrite app_nil_r. reflexivity. Qed.
Definition chead (o : opts) (r : result) (a h : option tok) : str := short r ++ B "," ++ side_text o r a ++ B "," ++ side_text o r h.
Definition ctext (o : opts) (x : auxs) (r : result) (a h : option tok) : str := chead o r a h ++ itx (items_of o x r a h).
Lemma cell_text_eq o x c r h : c_eval c = Some (r, h) -> r <> RU -> cell_text o x c = Ok (ctext o x r (c_ref c) h).
Proof.
  intros E N. unfold cell_text. rewrite E. unfold ctext, chead, items_of. rewrite !itx_app.
  rewrite <- !aux_field_itx.
  assert (EX : itx (if o_spkr o then [(ASPKR, spkr_text h); (AISSUB, sub_text r h)] else []) = aux_field (o_spkr o) (spkr_text h) ++ aux_field (o_spkr o) (sub_text r h)).
  { destruct (o_spkr o); [|reflexivity]. cbn. rewrite app_nil_r. reflexivity. }
  rewrite EX. destruct r; try congruence; rewrite <- !app_assoc; reflexivity.
Qed.

(** the effect of the values *)
Fixpoint steps (x : entry) (l : list (aux * str)) : res entry :=
  match l with
  | [] => Ok x
  | (a, s) :: r => match s with [] => steps x r | _ => let* x := aux_value a 44 s x in steps x r end
  end.
Lemma steps_app l : forall m x, steps x (l ++ m) = let* y := steps x l in steps y m.
Proof.
  induction l as [|[a s] l IH]; intros m x; [reflexivity|]. cbn [app steps]. destruct s as [|b s]; [apply IH|].
  destruct (aux_value a 44 (b :: s) x); cbn [rbind]; [apply IH|reflexivity|reflexivity|reflexivity].
Qed.
Definition clean (p : aux * str) : Prop := ~ In 44%N (snd p) /\ ~ In 0%N (snd p).
Lemma aux_values_gen j l : forall f x, Forall clean l -> length l < f -> aux_values f (itx l ++ 0%N :: j) (map fst l) x = steps x l.
Proof.
  induction l as [|[a s] l IH]; intros f x HC Hf; (destruct f as [|f]; [cbn in Hf; lia|]); [reflexivity|]. inversion HC as [|? ? [N44 N0] HC']; subst. cbn [snd] in N44, N0.
  cbn [aux_values steps map fst]. change (itx ((a, s) :: l)) with (44%N :: s ++ itx l). cbn [app rd rbind tl]. change (44 =? 0)%N with false. cbv iota.
  rewrite <- app_assoc.
  assert (EN : exists k, strchr (s ++ itx l ++ 0%N :: j) 44 = Ok k /\ (match k with Some n => Ok n | None => strlen (s ++ itx l ++ 0%N :: j) end) = Ok (length s)).
  { destruct l as [|[b t] l].
    - change (itx [] ++ 0%N :: j) with (0%N :: j). exists None. split; [apply strchr_none; (assumption || lia)|apply strlen_ok; assumption].
    - change (itx ((b, t) :: l) ++ 0%N :: j) with (44%N :: (t ++ itx l) ++ 0%N :: j). eexists. split; [apply strchr_found; assumption|reflexivity]. }
  destruct EN as (k & -> & EN). cbn [rbind]. rewrite EN. cbn [rbind]. rewrite adv_app. cbn [rbind]. cbn [length] in Hf.
  destruct s as [|b s].
  - cbn [length]. apply IH; [exact HC'|lia].
  - cbn [length]. replace (firstn (S (length s)) ((b :: s) ++ itx l ++ 0%N :: j)) with (b :: s).
    2:{ change (S (length s)) with (length (b :: s)). rewrite firstn_app, Nat.sub_diag, firstn_all. cbn [firstn]. rewrite app_nil_r. reflexivity. }
    destruct (aux_value a 44 (b :: s) x); cbn [rbind]; [apply IH; [exact HC'|lia]|reflexivity|reflexivity|reflexivity].
Qed.

(** a token whose values the flags announce *)
Definition announced (t c : bool) (k : option tok) : Prop := (t = false -> has tok_real k = false) /\ (c = false -> has (fun t => is_some (tk_conf t)) k = false).
Definition put_times (k : option tok) (w : wrd) : wrd := match k with Some t => if tok_real t then set_times w (tk_t1 t) (tk_t2 t) else w | None => w end.
Definition put_conf (k : option tok) (w : wrd) : wrd := match k with Some t => match tk_conf t with Some c => set_conf w c | None => w end | None => w end.
Lemma upd_a_id x : upd_a x (fun w => w) = x.
Proof. destruct x as [v [a|] b]; reflexivity. Qed.
Lemma upd_b_id x : upd_b x (fun w => w) = x.
Proof. destruct x as [v a [b|]]; reflexivity. Qed.
Definition tmw (t : tok) : wrd := set_times new_wrd (tk_t1 t) (tk_t2 t).
Lemma times_text_eq t : fixed 3 (tk_t1 t) ++ B "+" ++ fixed 3 (tk_t2 t) = times_text (tmw t).
Proof. reflexivity. Qed.
Lemma times_ne w : exists b s, times_text w = b :: s.
Proof. destruct (times_text w) as [|b s] eqn:E; [|eauto]. exfalso. unfold times_text in E. apply app_eq_nil in E as [E _]. exact (fixed_ne _ _ E). Qed.
Lemma fixed_cons k z : exists b s, fixed k z = b :: s.
Proof. destruct (fixed k z) as [|b s] eqn:E; [|eauto]. exfalso. exact (fixed_ne _ _ E). Qed.
Lemma step_rt x b k : (b = false -> has tok_real k = false) -> (en_ev x = EI -> k = None) ->
  steps x (if b then [(ART, time_text k)] else []) = Ok (upd_a x (put_times k)).
Proof.
  intros H HI. unfold put_times. destruct k as [t|]; [|destruct b; cbn; rewrite upd_a_id; reflexivity]. unfold time_text. cbn [has] in H. destruct (tok_real t) eqn:ER.
  - destruct b; [|specialize (H eq_refl); congruence]. rewrite times_text_eq. cbn [steps]. destruct (times_ne (tmw t)) as (c & s & E). rewrite E, <- E. cbn [aux_value].
    destruct (ev_eqb (en_ev x) EI) eqn:EI'; [exfalso; destruct (en_ev x); try discriminate; specialize (HI eq_refl); discriminate|]. rewrite read_times_ok. reflexivity.
  - destruct b; cbn; rewrite upd_a_id; reflexivity.
Qed.
Lemma step_ht x b k : (b = false -> has tok_real k = false) -> (en_ev x = ED -> k = None) ->
  steps x (if b then [(AHT, time_text k)] else []) = Ok (upd_b x (put_times k)).
Proof.
  intros H HI. unfold put_times. destruct k as [t|]; [|destruct b; cbn; rewrite upd_b_id; reflexivity]. unfold time_text. cbn [has] in H. destruct (tok_real t) eqn:ER.
  - destruct b; [|specialize (H eq_refl); congruence]. rewrite times_text_eq. cbn [steps]. destruct (times_ne (tmw t)) as (c & s & E). rewrite E, <- E. cbn [aux_value].
    destruct (ev_eqb (en_ev x) ED) eqn:EI'; [exfalso; destruct (en_ev x); try discriminate; specialize (HI eq_refl); discriminate|]. rewrite read_times_ok. reflexivity.
  - destruct b; cbn; rewrite upd_b_id; reflexivity.
Qed.
Lemma step_rc x b k : (b = false -> has (fun t => is_some (tk_conf t)) k = false) -> (en_ev x = EI -> k = None) ->
  steps x (if b then [(ARC, conf_text k)] else []) = Ok (upd_a x (put_conf k)).
Proof.
  intros H HI. unfold put_conf. destruct k as [t|]; [|destruct b; cbn; rewrite upd_a_id; reflexivity]. unfold conf_text. cbn [has] in H. destruct (tk_conf t) as [z|] eqn:ER.
  - destruct b; [|specialize (H eq_refl); discriminate]. cbn [steps]. destruct (fixed_cons 6 z) as (c & s & E). rewrite E, <- E. cbn [aux_value].
    destruct (ev_eqb (en_ev x) EI) eqn:EI'; [exfalso; destruct (en_ev x); try discriminate; specialize (HI eq_refl); discriminate|]. rewrite atof_in_fixed. reflexivity.
  - destruct b; cbn; rewrite upd_a_id; reflexivity.
Qed.
Lemma step_hc x b k : (b = false -> has (fun t => is_some (tk_conf t)) k = false) -> (en_ev x = ED -> k = None) ->
  steps x (if b then [(AHC, conf_text k)] else []) = Ok (upd_b x (put_conf k)).
Proof.
  intros H HI. unfold put_conf. destruct k as [t|]; [|destruct b; cbn; rewrite upd_b_id; reflexivity]. unfold conf_text. cbn [has] in H. destruct (tk_conf t) as [z|] eqn:ER.
  - destruct b; [|specialize (H eq_refl); discriminate]. cbn [steps]. destruct (fixed_cons 6 z) as (c & s & E). rewrite E, <- E. cbn [aux_value].
    destruct (ev_eqb (en_ev x) ED) eqn:EI'; [exfalso; destruct (en_ev x); try discriminate; specialize (HI eq_refl); discriminate|]. rewrite atof_in_fixed. reflexivity.
  - destruct b; cbn; rewrite upd_b_id; reflexivity.
Qed.
Lemma step_sp x (b : bool) s t : steps x (if b then [(ASPKR, s); (AISSUB, t)] else []) = Ok x.
Proof. destruct b; [|reflexivity]. destruct s, t; reflexivity. Qed.
Definition begun (o : opts) (r : result) (t : option tok) : option wrd :=
  match t with Some t => Some (set_value new_wrd (tok_text o t)) | None => if correct r then Some (set_value new_wrd []) else None end.
Lemma steps_items o x r a h e0 : en_ev e0 = ev_of r -> (r = RI -> a = None) -> (r = RD -> h = None) -> (ev_of r <> EU) ->
  announced (x_rt x) (x_rc x) a -> announced (x_ht x) (x_hc x) h ->
  steps e0 (items_of o x r a h) = Ok (upd_b (upd_a (upd_b (upd_a e0 (put_times a)) (put_times h)) (put_conf a)) (put_conf h)).
Proof.
  intros EV HI HD NU [A1 A2] [H1 H2]. unfold items_of. rewrite !steps_app.
  assert (EI1 : ev_of r = EI -> a = None) by (destruct r; try discriminate; auto). assert (ED1 : ev_of r = ED -> h = None) by (destruct r; try discriminate; auto).
  rewrite step_rt; [|exact A1|rewrite EV; exact EI1]. cbn [rbind]. rewrite steps_app. rewrite step_ht; [|exact H1|cbn; rewrite EV; exact ED1]. cbn [rbind]. rewrite steps_app.
  rewrite step_rc; [|exact A2|cbn; rewrite EV; exact EI1]. cbn [rbind]. rewrite steps_app. rewrite step_hc; [|exact H2|cbn; rewrite EV; exact ED1]. cbn [rbind]. apply step_sp.
Qed.

(** ** Reading a cell *)
Definition good (e : enc) (o : opts) (x : auxs) (c : cell) : Prop :=
  cell_ok e o c /\ announced (x_rt x) (x_rc x) (c_ref c) /\ announced (x_ht x) (x_hc x) (hyp_of c).
Lemma word_of_begun o (t : tok) : put_conf (Some t) (put_times (Some t) (set_value new_wrd (tok_text o t))) = word_of o t.
Proof. unfold put_conf, put_times, word_of, timed, tok_real, real. rewrite tok_text_eq. destruct ((0 <=? tk_t1 t)%Z && (0 <=? tk_t2 t)%Z), (tk_conf t); reflexivity. Qed.
Lemma clean_items e o x r a h : (o_spkr o = true -> side_tok e o h) -> Forall clean (items_of o x r a h).
Proof.
  intros H. assert (T : forall k, clean (ART, time_text k) /\ clean (AHT, time_text k)).
  { intros k. assert (~ In 44%N (time_text k) /\ ~ In 0%N (time_text k)); [|split; assumption]. unfold time_text. destruct k as [t|]; [|split; intros []]. destruct (tok_real t); [|split; intros []].
    rewrite times_text_eq. pose proof (times_bytes (tmw t)) as F. rewrite Forall_forall in F. split; intro I; apply F in I; unfold numeric, isd in I; lia. }
  assert (K : forall k, clean (ARC, conf_text k) /\ clean (AHC, conf_text k)).
  { intros k. assert (~ In 44%N (conf_text k) /\ ~ In 0%N (conf_text k)); [|split; assumption]. unfold conf_text. destruct k as [t|]; [|split; intros []]. destruct (tk_conf t) as [z|]; [|split; intros []].
    split; apply (numeric_not _ _ (fixed_bytes _ _)); unfold numeric, isd; lia. }
  unfold items_of. repeat (apply Forall_app; split).
  - destruct (x_rt x); [constructor; [apply T|constructor]|constructor].
  - destruct (x_ht x); [constructor; [apply T|constructor]|constructor].
  - destruct (x_rc x); [constructor; [apply K|constructor]|constructor].
  - destruct (x_hc x); [constructor; [apply K|constructor]|constructor].
  - destruct (o_spkr o) eqn:EO; [|constructor]. specialize (H eq_refl). constructor; [|constructor; [|constructor]].
    + unfold clean. cbn [snd]. destruct h as [t|]; [|split; intros []]. destruct H as [_ H]. specialize (H EO). unfold plain_id in H. rewrite Forall_forall in H. cbn [spkr_text].
      split; intro I; apply H in I; lia.
    + unfold clean. cbn [snd sub_text]. destruct h; [destruct r|]; cbn; split; intuition discriminate.
Qed.
Lemma itx_len l : length l <= length (itx l).
Proof. induction l as [|[a s] l IH]; [reflexivity|]. change (itx ((a, s) :: l)) with (44%N :: s ++ itx l). cbn [length]. rewrite app_length. lia. Qed.
Lemma itx_first l j : exists c, rd (itx l ++ 0%N :: j) = Ok c /\ negb (c =? 44)%N && negb (c =? 0)%N = false.
Proof. destruct l as [|[a s] l]; [exists 0%N|exists 44%N]; split; reflexivity. Qed.
Lemma read_cell e o x c r h j fields : good e o x c -> c_eval c = Some (r, h) -> (akinds o x = [] \/ fields = akinds o x) ->
  read_entry (ctext o x r (c_ref c) h ++ 0%N :: j) fields = Ok (entry_of o c).
Proof.
  intros ((HA & HR) & AA & AH) EC HF. unfold entry_of, hyp_of in *. rewrite EC in *. destruct HR as [HH HR]. set (a := c_ref c) in *. clearbody a.
  assert (AV : forall f e0, length (items_of o x r a h) < f -> (match fields with [] => Ok e0 | _ => aux_values f (itx (items_of o x r a h) ++ 0%N :: j) fields e0 end)
      = steps e0 (items_of o x r a h)).
  { intros f e0 Hf. pose proof (items_kinds o x r a h) as IK. destruct HF as [E|E].
    - rewrite E in IK. destruct (items_of o x r a h); [|discriminate]. destruct fields; [reflexivity|]. destruct f; [cbn in Hf; lia|]. reflexivity.
    - rewrite E, <- IK. destruct (items_of o x r a h) eqn:EK; [reflexivity|]. rewrite <- EK in *. rewrite aux_values_gen.
      + destruct (map fst (items_of o x r a h)) eqn:EM; [rewrite EK in EM; discriminate|reflexivity].
      + apply (clean_items e). intros _. exact HH.
      + exact Hf. }
  pose proof (itx_len (items_of o x r a h)) as LI. set (its := items_of o x r a h) in *.
  assert (QT : forall t, side_tok e o (Some t) -> ~ In 34%N (tok_text o t) /\ ~ In 0%N (tok_text o t)).
  { intros t [Ht _]. rewrite tok_text_eq. pose proof (shown_field e o t Ht) as F. split; intro I; apply (fld_safe e _ _ F) in I; tauto. }
  assert (QN : ~ In 34%N (@nil N) /\ ~ In 0%N (@nil N)) by (split; intros []).
  assert (ST : forall e0, en_ev e0 = ev_of r -> steps e0 its = Ok (upd_b (upd_a (upd_b (upd_a e0 (put_times a)) (put_times h)) (put_conf a)) (put_conf h))).
  { intros e0 EV. apply steps_items; [exact EV|intros ->; apply HR|intros ->; apply HR|destruct r; try discriminate; contradiction|exact AA|exact AH]. }
  unfold read_entry, ctext, chead. fold its.
  destruct r; try contradiction.
  - (* correct *)
    assert (SA : forall k, exists w, side_text o RC k = 34%N :: w ++ [34%N] /\ (side_tok e o k -> ~ In 34%N w /\ ~ In 0%N w) /\ put_conf k (put_times k (set_value new_wrd w)) = match side_of o RC k with Some w => w | None => no_word end).
    { intros [t|]; [exists (tok_text o t)|exists []]; (split; [reflexivity|]); (split; [auto|]); [apply word_of_begun|reflexivity]. }
    destruct (SA a) as (w1 & E1 & Q1 & P1). destruct (SA h) as (w2 & E2 & Q2 & P2). rewrite E1, E2. destruct (Q1 HA) as [Q11 Q12]. destruct (Q2 HH) as [Q21 Q22].
    cbn [short B map list_ascii_of_string app rd rbind]. rewrite <- ?app_assoc. cbn [app]. rewrite <- ?app_assoc. cbn [app]. rewrite <- ?app_assoc. cbn [app].
    match goal with |- context [rd (?c :: ?r)] => change (rd (c :: r)) with (Ok c) | _ => idtac end; cbn [rbind].
    match goal with |- context [read_ev ?c] => let v := eval compute in (read_ev c) in change (read_ev c) with v end; cbv iota; rewrite adv1; cbn [rbind].
    change (N_of_ascii ",") with 44%N. rewrite quoted_word_ok by assumption. cbn [rbind]. rewrite quoted_word_ok by assumption. cbn [rbind].
    rewrite AV by (rewrite app_length; lia). rewrite ST by reflexivity. unfold upd_a, upd_b. cbn [en_ev en_a en_b option_map ev_of]. f_equal. f_equal.
    + rewrite P1. destruct a; reflexivity.
    + rewrite P2. destruct h; reflexivity.
  - destruct a as [t|]; [|destruct HR; contradiction]. destruct h as [u|]; [|destruct HR; contradiction]. cbn [side_text].
    unfold quoted, QUOTE. cbn [short B map list_ascii_of_string app rd rbind]. rewrite <- ?app_assoc. cbn [app]. rewrite <- ?app_assoc. cbn [app]. rewrite <- ?app_assoc. cbn [app].
    match goal with |- context [rd (?c :: ?r)] => change (rd (c :: r)) with (Ok c) | _ => idtac end; cbn [rbind].
    match goal with |- context [read_ev ?c] => let v := eval compute in (read_ev c) in change (read_ev c) with v end; cbv iota; rewrite adv1; cbn [rbind].
    change (N_of_ascii ",") with 44%N. rewrite quoted_word_ok by (apply QT; assumption). cbn [rbind]. rewrite quoted_word_ok by (apply QT; assumption). cbn [rbind].
    rewrite AV by (rewrite app_length; lia). rewrite ST by reflexivity. unfold upd_a, upd_b. cbn [en_ev en_a en_b option_map ev_of side_of]. rewrite !word_of_begun. reflexivity.
  - destruct a as [t|]; [|destruct HR; contradiction]. destruct h as [u|]; [|destruct HR; contradiction]. cbn [side_text].
    unfold quoted, QUOTE. cbn [short B map list_ascii_of_string app rd rbind]. rewrite <- ?app_assoc. cbn [app]. rewrite <- ?app_assoc. cbn [app]. rewrite <- ?app_assoc. cbn [app].
    match goal with |- context [rd (?c :: ?r)] => change (rd (c :: r)) with (Ok c) | _ => idtac end; cbn [rbind].
    match goal with |- context [read_ev ?c] => let v := eval compute in (read_ev c) in change (read_ev c) with v end; cbv iota; rewrite adv1; cbn [rbind].
    change (N_of_ascii ",") with 44%N. rewrite quoted_word_ok by (apply QT; assumption). cbn [rbind]. rewrite quoted_word_ok by (apply QT; assumption). cbn [rbind].
    rewrite AV by (rewrite app_length; lia). rewrite ST by reflexivity. unfold upd_a, upd_b. cbn [en_ev en_a en_b option_map ev_of side_of]. rewrite !word_of_begun. reflexivity.
  - destruct a as [t|]; [|destruct HR; contradiction]. destruct HR as [_ ->]. cbn [side_text correct].
    unfold quoted, QUOTE. cbn [short B map list_ascii_of_string app rd rbind]. rewrite <- ?app_assoc. cbn [app]. rewrite <- ?app_assoc. cbn [app]. rewrite <- ?app_assoc. cbn [app].
    match goal with |- context [rd (?c :: ?r)] => change (rd (c :: r)) with (Ok c) | _ => idtac end; cbn [rbind].
    match goal with |- context [read_ev ?c] => let v := eval compute in (read_ev c) in change (read_ev c) with v end; cbv iota; rewrite adv1; cbn [rbind].
    change (N_of_ascii ",") with 44%N. rewrite quoted_word_ok by (apply QT; assumption). cbn [rbind]. rewrite adv1. cbn [rbind].
    destruct (itx_first its j) as (q & -> & HQ). cbn [rbind]. rewrite HQ. cbn [rbind].
    rewrite AV by (rewrite app_length; lia). rewrite ST by reflexivity. unfold upd_a, upd_b. cbn [en_ev en_a en_b option_map ev_of side_of]. rewrite word_of_begun. reflexivity.
  - destruct h as [u|]; [|destruct HR; contradiction]. destruct HR as [-> _]. cbn [side_text correct].
    unfold quoted, QUOTE. cbn [short B map list_ascii_of_string app rd rbind]. rewrite <- ?app_assoc. cbn [app]. rewrite <- ?app_assoc. cbn [app]. rewrite <- ?app_assoc. cbn [app].
    match goal with |- context [rd (?c :: ?r)] => change (rd (c :: r)) with (Ok c) | _ => idtac end; cbn [rbind].
    match goal with |- context [read_ev ?c] => let v := eval compute in (read_ev c) in change (read_ev c) with v end; cbv iota; rewrite adv1; cbn [rbind].
    change (N_of_ascii ",") with 44%N. rewrite adv1. cbn [rbind rd]. change (44 =? 44)%N with true. cbn [negb rbind]. rewrite quoted_word_ok by (apply QT; assumption). cbn [rbind].
    rewrite AV by (rewrite app_length; lia). rewrite ST by reflexivity. unfold upd_a, upd_b. cbn [en_ev en_a en_b option_map ev_of side_of]. rewrite word_of_begun. reflexivity.
Qed.
