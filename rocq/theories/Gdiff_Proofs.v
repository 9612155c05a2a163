(** Lemmas about the alignment by diff. *)
From Coq Require Import List Arith ZArith NArith Bool Lia.
From Verif Require Import Base Text_Model Text_Spec Word_Model NetDp_Model Path_Model Gdiff_Model Gdiff_Spec.
From Verif Require AsStm_Model AsStm_Proofs1 Word_Proofs.
Import ListNotations.
Local Open Scope res_scope.
Local Open Scope nat_scope.

(** ** Characters *)
Lemma sep_iff c : sep c = true <-> blank c.
Proof. unfold sep, blank. rewrite !orb_true_iff, !N.eqb_eq. tauto. Qed.
Lemma space_iff c : AsStm_Model.isspace c = true <-> space c.
Proof. unfold AsStm_Model.isspace, space. rewrite orb_true_iff, andb_true_iff, N.eqb_eq, !N.leb_le. tauto. Qed.
Lemma blank_space c : blank c -> space c.
Proof. unfold blank, space. lia. Qed.
Lemma not_space c : ~ space c -> AsStm_Model.isspace c = false.
Proof. intros H. destruct (AsStm_Model.isspace c) eqn:E; [apply space_iff in E; contradiction|reflexivity]. Qed.
Lemma not_sep c : ~ space c -> sep c = false.
Proof. intros H. destruct (sep c) eqn:E; [apply sep_iff, blank_space in E; contradiction|reflexivity]. Qed.
Lemma spaces s : Forall space s -> Forall (fun c => AsStm_Model.isspace c = true) s.
Proof. apply Forall_impl. intros c. apply space_iff. Qed.
Lemma no_spaces w : Forall (fun c => ~ space c) w -> Forall (fun c => AsStm_Model.isspace c = false) w.
Proof. apply Forall_impl. intros c. apply not_space. Qed.
Lemma no_seps w : Forall (fun c => ~ space c) w -> Forall (fun c => sep c = false) w.
Proof. apply Forall_impl. intros c. apply not_sep. Qed.

(** ** The tokens of a text *)
Definition token (w : list N) : Prop := w <> [] /\ Forall (fun c => ~ space c) w.
Lemma plain_token e w : plain e w -> token w.
Proof. intros (_ & A & B & _). split; assumption. Qed.
Lemma tokens_spelled t ws : spelled t ws -> Forall token ws -> tokens t = ws.
Proof.
  unfold tokens. induction 1 as [s B|s w B|s w c r ws B Bc SP IH]; intros F.
  - rewrite <- (app_nil_r s), AsStm_Proofs1.pieces_blank by (eapply Forall_impl; [|exact B]; intros a; apply sep_iff). reflexivity.
  - destruct (Forall_inv F) as (NE & NS). rewrite AsStm_Proofs1.pieces_blank by (eapply Forall_impl; [|exact B]; intros a; apply sep_iff).
    rewrite <- (app_nil_r w), AsStm_Proofs1.pieces_word by (apply no_seps, NS). rewrite app_nil_r. cbn [app AsStm_Model.pieces]. destruct w; [congruence|reflexivity].
  - destruct (Forall_inv F) as (NE & NS). specialize (IH (Forall_inv_tail F)).
    rewrite AsStm_Proofs1.pieces_blank by (eapply Forall_impl; [|exact B]; intros a; apply sep_iff).
    rewrite AsStm_Proofs1.pieces_word by (apply no_seps, NS). cbn [app AsStm_Model.pieces] in *. apply sep_iff in Bc. rewrite Bc in *.
    destruct w; [congruence|]. rewrite IH. reflexivity.
Qed.

(** ** Fields of a line *)
Lemma fields_gap s r : Forall space s -> AsStm_Model.pieces AsStm_Model.isspace [] (s ++ r) = AsStm_Model.pieces AsStm_Model.isspace [] r.
Proof. intros H. apply AsStm_Proofs1.pieces_blank, spaces, H. Qed.
Lemma fields_word w s r : token w -> gap s ->
  AsStm_Model.pieces AsStm_Model.isspace [] (w ++ s ++ r) = w :: AsStm_Model.pieces AsStm_Model.isspace [] r.
Proof.
  intros (NE & NS) (NG & G). rewrite AsStm_Proofs1.pieces_word by (apply no_spaces, NS). cbn [app].
  destruct s as [|c s]; [congruence|]. pose proof (Forall_inv G) as Gc. apply space_iff in Gc. cbn [app AsStm_Model.pieces]. rewrite Gc.
  destruct w; [congruence|]. rewrite fields_gap by (apply (Forall_inv_tail G)). reflexivity.
Qed.
Lemma fields_last w t : token w -> Forall space t -> AsStm_Model.pieces AsStm_Model.isspace [] (w ++ t) = [w].
Proof.
  intros (NE & NS) G. destruct t as [|c t].
  - rewrite AsStm_Proofs1.pieces_word by (apply no_spaces, NS). cbn [app AsStm_Model.pieces]. destruct w; [congruence|reflexivity].
  - rewrite <- (app_nil_r (c :: t)). rewrite fields_word; [reflexivity|split; assumption|split; [discriminate|exact G]].
Qed.
Lemma mark_token c : ~ space c -> token [c].
Proof. intros H. split; [discriminate|constructor; [exact H|constructor]]. Qed.

Lemma word_ascii e c : (0 < c < 128)%N -> well_formed e [c].
Proof.
  intros H. exists [[c]]. split; [reflexivity|]. constructor; [|constructor]. exists c, []. split; [reflexivity|]. split.
  - destruct e; cbn; auto; left; split; lia || reflexivity.
  - constructor; [lia|constructor].
Qed.
Lemma wf60 e : well_formed e [60%N]. Proof. apply word_ascii. lia. Qed.
Lemma wf62 e : well_formed e [62%N]. Proof. apply word_ascii. lia. Qed.
Lemma wf64 e : well_formed e [64%N]. Proof. apply word_ascii. lia. Qed.
Lemma eq_dec_text e s t : well_formed e s -> well_formed e t ->
  exists z, strcmp e (cstr s) (cstr t) = Ok z /\ (z =? 0)%Z = if list_eq_dec N.eq_dec s t then true else false.
Proof.
  intros Hs Ht. destruct (Word_Proofs.strcmp_text e s t Hs Ht) as (z & E & I). exists z. split; [exact E|].
  destruct (list_eq_dec N.eq_dec s t) as [D|D]; destruct (Z.eqb_spec z 0) as [Z0|Z0]; try reflexivity; exfalso; tauto.
Qed.

(** ** The first alternatives *)
Section E.
Variable e : enc.
Definition keep (w : list N) : bool := if list_eq_dec N.eq_dec w [64%N] then false else true.

Lemma first_word w inside cnt r : ref_word e w -> (inside = false \/ cnt = 0) ->
  first_alt e inside cnt (w :: r) = let* ws := first_alt e inside cnt r in Ok (filter keep [w] ++ ws).
Proof.
  intros ((WF & NE & _) & H & _) IC. cbn [first_alt]. cbn [In] in H.
  assert (A : hd 0%N w <> 123%N /\ hd 0%N w <> 125%N /\ hd 0%N w <> 47%N) by (repeat split; intros X; apply H; rewrite X; auto).
  destruct A as (A1 & A2 & A3). apply N.eqb_neq in A1, A2, A3. rewrite A1, A2, A3.
  assert (negb inside || (cnt =? 0) = true) as -> by (destruct IC as [->| ->]; [reflexivity|rewrite Nat.eqb_refl; apply orb_true_r]).
  destruct (eq_dec_text e w [64%N] WF (wf64 e)) as (z & -> & EZ). cbn [rbind filter]. rewrite EZ. unfold keep.
  destruct (list_eq_dec N.eq_dec w [64%N]); cbn [negb]; [destruct (first_alt e inside cnt r); reflexivity|reflexivity].
Qed.
Lemma first_words ws : forall inside cnt r, Forall (ref_word e) ws -> (inside = false \/ cnt = 0) ->
  first_alt e inside cnt (ws ++ r) = let* vs := first_alt e inside cnt r in Ok (filter keep ws ++ vs).
Proof.
  induction ws as [|w ws IH]; intros inside cnt r F IC.
  - cbn [app filter]. destruct (first_alt e inside cnt r); reflexivity.
  - cbn [app]. rewrite first_word by (exact (Forall_inv F) || exact IC). rewrite IH by (exact (Forall_inv_tail F) || exact IC).
    destruct (first_alt e inside cnt r); cbn [rbind]; try reflexivity. change (w :: ws) with ([w] ++ ws). rewrite filter_app, <- app_assoc. reflexivity.
Qed.
Lemma skip_words ws : forall cnt r, Forall (ref_word e) ws -> first_alt e true (S cnt) (ws ++ r) = first_alt e true (S cnt) r.
Proof.
  induction ws as [|w ws IH]; intros cnt r F; [reflexivity|]. pose proof (Forall_inv F) as ((WF & NE & _) & H & _).
  cbn [app first_alt]. cbn [In] in H.
  assert (A : hd 0%N w <> 123%N /\ hd 0%N w <> 125%N /\ hd 0%N w <> 47%N) by (repeat split; intros X; apply H; rewrite X; auto).
  destruct A as (A1 & A2 & A3). apply N.eqb_neq in A1, A2, A3. rewrite A1, A2, A3. cbn [negb orb Nat.eqb]. apply IH, (Forall_inv_tail F).
Qed.
Lemma skip_others os : forall cnt r, Forall (Forall (ref_word e)) os ->
  exists cnt', first_alt e true cnt (flat_map (fun o => [47%N] :: o) os ++ [125%N] :: r) = first_alt e false cnt' r.
Proof.
  induction os as [|o os IH]; intros cnt r F.
  - exists cnt. reflexivity.
  - cbn [flat_map app]. rewrite <- app_assoc. cbn [first_alt hd]. cbn [N.eqb Pos.eqb negb orb Nat.eqb]. rewrite skip_words by exact (Forall_inv F).
    apply IH, (Forall_inv_tail F).
Qed.
Lemma first_items is : forall cnt, Forall (ref_word e) (flat_map item_words is) ->
  first_alt e false cnt (flat_map written is) = Ok (flat_map chosen is).
Proof.
  induction is as [|i is IH]; intros cnt F; [reflexivity|]. cbn [flat_map] in F |- *. apply Forall_app in F. destruct F as (Fi & Fs).
  destruct i as [w|a os].
  - cbn [written app]. rewrite first_word by (exact (Forall_inv Fi) || (left; reflexivity)). rewrite IH by exact Fs. reflexivity.
  - cbn [item_words] in Fi. apply Forall_app in Fi. destruct Fi as (Fa & Fo).
    assert (FO : Forall (Forall (ref_word e)) os).
    { clear - Fo. induction os as [|o os IH]; [constructor|]. cbn [concat] in Fo. apply Forall_app in Fo. destruct Fo. constructor; auto. }
    cbn [written app]. rewrite <- !app_assoc. cbn [first_alt hd]. cbn [N.eqb Pos.eqb].
    rewrite first_words by (exact Fa || (right; reflexivity)).
    cbn [app]. destruct (skip_others os 0 (flat_map written is) FO) as (c & ->). rewrite IH by exact Fs. reflexivity.
Qed.
Lemma ref_tokens is : Forall (ref_word e) (flat_map item_words is) -> Forall token (flat_map written is).
Proof.
  assert (T : forall ws, Forall (ref_word e) ws -> Forall token ws) by (intros ws; apply Forall_impl; intros w (P & _); apply (plain_token e), P).
  assert (M : forall c, In c [123%N; 125%N; 47%N] -> token [c]) by (intros c I; apply mark_token; unfold space; cbn in I; lia).
  induction is as [|i is IH]; intros F; [constructor|]. cbn [flat_map] in F |- *. apply Forall_app in F. destruct F as (Fi & Fs).
  apply Forall_app. split; [|apply IH, Fs]. destruct i as [w|a os]; [apply T, Fi|]. cbn [item_words] in Fi. apply Forall_app in Fi. destruct Fi as (Fa & Fo).
  cbn [written app]. constructor; [apply M; cbn; auto|]. apply Forall_app. split; [apply T, Fa|]. apply Forall_app. split; [|constructor; [apply M; cbn; auto|constructor]].
  clear - T M Fo. induction os as [|o os IH]; [constructor|]. cbn [concat] in Fo. apply Forall_app in Fo. destruct Fo as (A & B).
  cbn [flat_map app]. constructor; [apply M; cbn; auto|]. apply Forall_app. split; [apply T, A|apply IH, B].
Qed.
Lemma words_asked t ws : asks e t ws -> words_of e t = Ok ws.
Proof.
  intros (is & F & SP & ->). unfold words_of. rewrite (tokens_spelled _ _ SP) by (apply ref_tokens, F). apply first_items, F.
Qed.
Lemma chosen_in is : Forall (ref_word e) (flat_map item_words is) -> Forall (ref_word e) (flat_map chosen is).
Proof.
  rewrite !Forall_forall. intros F w I. apply F. apply in_flat_map in I. destruct I as (i & Ii & Iw). apply in_flat_map. exists i. split; [exact Ii|].
  unfold chosen in Iw. apply filter_In in Iw. destruct Iw as (Iw & _). destruct i; cbn [item_words] in *; [exact Iw|apply in_or_app; left; exact Iw].
Qed.
Lemma asked_words t ws : asks e t ws -> Forall (ref_word e) ws.
Proof. intros (is & F & _ & ->). apply chosen_in, F. Qed.
Lemma said_words hyps hws : Forall2 (says e) hyps hws -> hyp_words hyps = concat hws.
Proof.
  induction 1 as [|h ws hyps hws (F & SP) H IH]; [reflexivity|]. cbn [hyp_words concat]. rewrite IH, (tokens_spelled _ _ SP); [reflexivity|].
  eapply Forall_impl; [|exact F]. intros w (P & _). apply (plain_token e), P.
Qed.

(** ** The lines of diff *)
Definition good (m : move) : Prop := Forall (ref_word e) (ref_of m) /\ Forall (hyp_word e) (hyp_of m).
Definition stp (m : move) : wstep :=
  match m with
  | Same w => (Some (wd w), Some (wd w), PCorr)
  | Gone w => (Some (wd w), None, PDel)
  | Extra w => (None, Some (wd w), PIns)
  | Other a b => (Some (wd a), Some (wd b), PSub)
  end.
Definition first (m : move) : list N := match m with Same w => w | Gone w => w | Extra _ => [62%N] | Other a _ => a end.
Lemma plain_wd w : plain e w -> w_value (wd w) = w.
Proof.
  intros (_ & _ & _ & _ & L). unfold wd, new_word. cbn [w_value]. destruct w as [|a [|b w]]; try reflexivity.
  apply N.eqb_neq in L. rewrite L. reflexivity.
Qed.
Lemma small (w : list N) : length w <= 61 -> (length w <? 100) = true.
Proof. intros H. apply Nat.ltb_lt. lia. Qed.
Lemma line_ok m l : shown m l -> good m -> process_line e l = Ok (first m, stp m).
Proof.
  assert (L60 : ~ space 60) by (unfold space; lia). assert (L62 : ~ space 62) by (unfold space; lia). assert (L124 : ~ space 124) by (unfold space; lia).
  unfold process_line. intros SH (FR & FH). destruct SH as [w s t G T|w s t G T|w s s' t G G' T|a b s s' t G G' T]; cbn [ref_of hyp_of] in FR, FH.
  - destruct (Forall_inv FR) as (P & _). pose proof P as (WF & _ & _ & LE & _). rewrite fields_word by (exact (plain_token e _ P) || exact G).
    rewrite fields_last by (exact (plain_token e _ P) || exact T). cbn [firstn forallb nth length Nat.eqb]. rewrite (small _ LE). cbn [andb].
    destruct (eq_dec_text e w w WF WF) as (z & -> & EZ). destruct (list_eq_dec N.eq_dec w w); [|congruence]. cbn [rbind]. rewrite EZ. reflexivity.
  - destruct (Forall_inv FR) as (P & _ & N1 & N2). pose proof P as (WF & _ & _ & LE & _). rewrite fields_word by (exact (plain_token e _ P) || exact G).
    rewrite fields_last by (exact (mark_token _ L60) || exact T). cbn [firstn forallb nth length Nat.eqb]. rewrite (small _ LE). cbn [andb Nat.ltb Nat.leb].
    destruct (eq_dec_text e w [60%N] WF (wf60 e)) as (z & -> & EZ). destruct (list_eq_dec N.eq_dec w [60%N]); [congruence|]. cbn [rbind]. rewrite EZ.
    destruct (eq_dec_text e w [62%N] WF (wf62 e)) as (z' & -> & EZ'). destruct (list_eq_dec N.eq_dec w [62%N]); [congruence|]. cbn [rbind]. rewrite EZ'. reflexivity.
  - destruct (Forall_inv FH) as (P & N1). pose proof P as (WF & _ & _ & LE & _). rewrite fields_gap by exact G. rewrite fields_word by (exact (mark_token _ L62) || exact G').
    rewrite fields_last by (exact (plain_token e _ P) || exact T). cbn [firstn forallb nth length Nat.eqb]. rewrite (small _ LE). cbn [andb Nat.ltb Nat.leb].
    destruct (eq_dec_text e [62%N] w (wf62 e) WF) as (z & -> & EZ). destruct (list_eq_dec N.eq_dec [62%N] w); [congruence|]. cbn [rbind]. rewrite EZ.
    destruct (eq_dec_text e [62%N] [62%N] (wf62 e) (wf62 e)) as (z' & -> & EZ'). destruct (list_eq_dec N.eq_dec [62%N] [62%N]); [|congruence].
    cbn [rbind]. rewrite EZ'. reflexivity.
  - destruct (Forall_inv FR) as (P & _). pose proof P as (WF & _ & _ & LE & _). destruct (Forall_inv FH) as (P' & _). pose proof P' as (WF' & _ & _ & LE' & _).
    rewrite fields_word by (exact (plain_token e _ P) || exact G). rewrite fields_word by (exact (mark_token _ L124) || exact G').
    rewrite fields_last by (exact (plain_token e _ P') || exact T). cbn [firstn forallb nth length Nat.eqb]. rewrite (small _ LE), (small _ LE'). cbn [andb Nat.ltb Nat.leb rbind]. reflexivity.
Qed.
Lemma first_wf m : good m -> well_formed e (first m).
Proof.
  intros (FR & FH). destruct m; cbn [first ref_of hyp_of] in *; try (destruct (Forall_inv FR) as ((WF & _) & _); exact WF). apply word_ascii. lia.
Qed.

(** ** Dealing the lines *)
Definition refs_of (ms : list move) : list (list N) := flat_map ref_of ms.
Definition ends (ms : list move) : Prop := ms = [] \/ exists q m, ms = q ++ [m] /\ ref_of m <> [].

Lemma take_ok w ws : ref_word e w -> forall ms lines, Forall2 shown ms lines -> Forall good ms -> refs_of ms = w :: ws ->
  exists ms1 ms2 lines2, ms = ms1 ++ ms2 /\ take e w false lines = Ok (map stp ms1, lines2) /\ Forall2 shown ms2 lines2
    /\ refs_of ms1 = [w] /\ refs_of ms2 = ws /\ ends ms1.
Proof.
  intros RW. induction ms as [|m ms IH]; intros lines SH GD R; [discriminate|].
  destruct lines as [|l lines]; [inversion SH|]. assert (S1 : shown m l) by (inversion SH; assumption). assert (S2 : Forall2 shown ms lines) by (inversion SH; assumption). clear SH.
  cbn [take]. pose proof (Forall_inv GD) as Gm. rewrite (line_ok _ _ S1 Gm). cbn [rbind].
  destruct RW as ((WF & WF') & W2 & W3 & W4). destruct (eq_dec_text e (first m) w (first_wf _ Gm) WF) as (z & -> & EZ). cbn [rbind]. rewrite EZ.
  destruct (ref_of m) as [|v vs] eqn:Em.
  - assert (F : first m = [62%N]) by (destruct m; try discriminate Em; reflexivity). rewrite F. destruct (list_eq_dec N.eq_dec [62%N] w); [congruence|]. cbn [negb orb].
    unfold refs_of in R. cbn [flat_map] in R. rewrite Em in R. cbn [app] in R.
    destruct (IH lines S2 (Forall_inv_tail GD) R) as (ms1 & ms2 & l2 & -> & -> & SH2 & R1 & R2 & EN). exists (m :: ms1), ms2, l2.
    split; [reflexivity|]. split; [reflexivity|]. split; [exact SH2|]. split; [unfold refs_of; cbn [flat_map]; rewrite Em; exact R1|]. split; [exact R2|].
    destruct EN as [->|(q & x & -> & X)]; [discriminate R1|]. right. exists (m :: q), x. split; [reflexivity|exact X].
  - assert (F : v = first m /\ vs = []) by (destruct m; try discriminate Em; injection Em as <- <-; auto). destruct F as (-> & ->).
    unfold refs_of in R. cbn [flat_map] in R. rewrite Em in R. cbn [app] in R. injection R as FW R. rewrite FW in Em |- *. destruct (list_eq_dec N.eq_dec w w); [|congruence]. cbn [negb orb].
    exists [m], ms, lines. split; [reflexivity|]. split; [reflexivity|]. split; [exact S2|]. split; [unfold refs_of; cbn [flat_map]; rewrite Em; reflexivity|]. split; [exact R|].
    right. exists [], m. split; [reflexivity|]. rewrite Em. discriminate.
Qed.
Lemma take_all w : ref_word e w -> forall ms lines, Forall2 shown ms lines -> Forall good ms -> take e w true lines = Ok (map stp ms, []).
Proof.
  intros ((WF & _) & _). induction 1 as [|m l ms lines S1 S2 IH]; intros GD; [reflexivity|]. cbn [take]. pose proof (Forall_inv GD) as Gm. rewrite (line_ok _ _ S1 Gm). cbn [rbind].
  destruct (eq_dec_text e (first m) w (first_wf _ Gm) WF) as (z & -> & _). cbn [rbind]. rewrite orb_true_r, (IH (Forall_inv_tail GD)). reflexivity.
Qed.
Lemma loop_ok more : forall ws ms lines, Forall (ref_word e) ws -> Forall2 shown ms lines -> Forall good ms -> refs_of ms = ws ++ more ->
  exists ms1 ms2 lines2, ms = ms1 ++ ms2 /\ words_loop e false ws lines = Ok (map stp ms1, lines2) /\ Forall2 shown ms2 lines2
    /\ refs_of ms1 = ws /\ refs_of ms2 = more /\ ends ms1.
Proof.
  induction ws as [|w ws IH]; intros ms lines FW SH GD R.
  - exists [], ms, lines. repeat (split; [first [reflexivity|exact SH|exact R]|]). left. reflexivity.
  - destruct (take_ok w (ws ++ more) (Forall_inv FW) ms lines SH GD R) as (ms1 & ms2 & l2 & -> & E & SH2 & R1 & R2 & EN).
    apply Forall_app in GD. destruct GD as (G1 & G2).
    destruct (IH ms2 l2 (Forall_inv_tail FW) SH2 G2 R2) as (ms3 & ms4 & l4 & -> & E' & SH4 & R3 & R4 & EN').
    exists (ms1 ++ ms3), ms4, l4. split; [apply app_assoc|]. cbn [words_loop]. rewrite E. cbn [rbind]. rewrite E'. cbn [rbind]. rewrite map_app.
    split; [reflexivity|]. split; [exact SH4|]. split; [unfold refs_of in *; rewrite flat_map_app, R1, R3; reflexivity|]. split; [exact R4|].
    destruct EN' as [->|(q & x & -> & X)]; [rewrite app_nil_r; exact EN|]. right. exists (ms1 ++ q), x. split; [apply app_assoc|exact X].
Qed.
Lemma loop_done ws : Forall (ref_word e) ws -> words_loop e true ws [] = Ok ([], []).
Proof. induction 1 as [|w ws W F IH]; [reflexivity|]. cbn [words_loop take rbind]. rewrite IH. reflexivity. Qed.
Lemma loop_all ws ms lines : ws <> [] -> Forall (ref_word e) ws -> Forall2 shown ms lines -> Forall good ms -> words_loop e true ws lines = Ok (map stp ms, []).
Proof.
  intros NE FW SH GD. destruct ws as [|w ws]; [congruence|]. cbn [words_loop]. rewrite (take_all w (Forall_inv FW) ms lines SH GD). cbn [rbind].
  rewrite (loop_done ws (Forall_inv_tail FW)). cbn [rbind]. rewrite app_nil_r. reflexivity.
Qed.

Definition deals (ms : list move) (rws : list (list (list N))) (mss : list (list move)) : Prop :=
  concat mss = ms /\ map refs_of mss = rws /\ Forall ends (removelast mss).
Lemma deals_cons ms1 ms2 ws rws mss : refs_of ms1 = ws -> ends ms1 -> deals ms2 rws mss -> deals (ms1 ++ ms2) (ws :: rws) (ms1 :: mss).
Proof.
  intros R EN (A & B & D). split; [cbn [concat]; rewrite A; reflexivity|]. split; [cbn [map]; rewrite R, B; reflexivity|].
  destruct mss; [constructor|]. cbn [removelast] in *. constructor; [exact EN|exact D].
Qed.
Lemma deal_ok : forall refs rws ms lines, Forall2 (asks e) refs rws -> last rws [] <> [] -> Forall2 shown ms lines -> Forall good ms ->
  refs_of ms = concat rws -> exists mss, deals ms rws mss /\ deal e (length refs) refs lines = Ok (map (map stp) mss).
Proof.
  induction refs as [|t refs IH]; intros rws ms lines AS NE SH GD R.
  - inversion AS; subst rws. cbn [last] in NE. congruence.
  - inversion AS as [|? ws ? rws' A AS']; subst. cbn [deal length]. replace (S (length refs) - 1) with (length refs) by lia.
    rewrite (words_asked _ _ A). cbn [rbind]. destruct refs as [|t' refs].
    + inversion AS'; subst. cbn [last] in NE. cbn [concat] in R. rewrite app_nil_r in R. cbn [length Nat.eqb].
      rewrite (loop_all ws ms lines NE (asked_words _ _ A) SH GD). cbn [rbind deal]. exists [ms]. split; [|reflexivity].
      split; [apply app_nil_r|]. split; [cbn [map]; rewrite R; reflexivity|constructor].
    + change (length (t' :: refs) =? 0) with false. cbn [concat] in R.
      destruct (loop_ok (concat rws') ws ms lines (asked_words _ _ A) SH GD R) as (ms1 & ms2 & l2 & -> & -> & SH2 & R1 & R2 & EN). cbn [rbind].
      apply Forall_app in GD. destruct GD as (G1 & G2).
      assert (NE' : last rws' [] <> []) by (inversion AS'; subst; exact NE).
      destruct (IH rws' ms2 l2 AS' NE' SH2 G2 R2) as (mss & DL & ->). cbn [rbind]. exists (ms1 :: mss). split; [apply deals_cons; assumption|reflexivity].
Qed.
(** without a last utterance: what follows the last reference word is lost *)
Lemma deal_chan_ok r_end num : forall refs r rws ms lines, Forall2 (asks e) refs rws -> (r + length refs <= r_end + (if r_end =? num then 1 else 0)) ->
  Forall2 shown ms lines -> Forall good ms -> refs_of ms = concat rws ->
  exists ms1 ms2 mss, ms = ms1 ++ ms2 /\ refs_of ms2 = [] /\ deals ms1 rws mss /\ ends ms1 /\ deal_chan e r_end num r refs lines = Ok (map (map stp) mss).
Proof.
  induction refs as [|t refs IH]; intros r rws ms lines AS LE SH GD R.
  - inversion AS; subst. exists [], ms, []. split; [reflexivity|]. split; [exact R|]. split; [split; [reflexivity|split; [reflexivity|constructor]]|]. split; [left; reflexivity|reflexivity].
  - inversion AS as [|? ws ? rws' A AS']; subst. cbn [deal_chan]. cbn [length] in LE. rewrite (words_asked _ _ A). cbn [rbind].
    assert ((r =? r_end + (if r_end =? num then 1 else 0)) = false) as -> by (apply Nat.eqb_neq; lia). cbn [concat] in R.
    destruct (loop_ok (concat rws') ws ms lines (asked_words _ _ A) SH GD R) as (ms1 & ms2 & l2 & -> & -> & SH2 & R1 & R2 & EN). cbn [rbind].
    apply Forall_app in GD. destruct GD as (G1 & G2).
    destruct (IH (r + 1) rws' ms2 l2 AS' ltac:(lia) SH2 G2 R2) as (ms3 & ms4 & mss & -> & R4 & DL & EN' & ->). cbn [rbind].
    exists (ms1 ++ ms3), ms4, (ms1 :: mss). split; [apply app_assoc|]. split; [exact R4|]. split; [apply deals_cons; assumption|]. split; [|reflexivity].
    destruct EN' as [->|(q & x & -> & X)]; [rewrite app_nil_r; exact EN|]. right. exists (ms1 ++ q), x. split; [apply app_assoc|exact X].
Qed.
(** with one *)
Lemma deal_chan_last r_end num : r_end <> num -> forall refs r rws ms lines, Forall2 (asks e) refs rws -> r + length refs = r_end + 1 -> last rws [] <> [] ->
  Forall2 shown ms lines -> Forall good ms -> refs_of ms = concat rws ->
  exists mss, deals ms rws mss /\ deal_chan e r_end num r refs lines = Ok (map (map stp) mss).
Proof.
  intros NN. induction refs as [|t refs IH]; intros r rws ms lines AS LE NE SH GD R.
  - inversion AS; subst rws. cbn [last] in NE. congruence.
  - inversion AS as [|? ws ? rws' A AS']; subst. cbn [deal_chan]. cbn [length] in LE. apply Nat.eqb_neq in NN. rewrite NN, Nat.add_0_r.
    rewrite (words_asked _ _ A). cbn [rbind]. destruct refs as [|t' refs].
    + inversion AS'; subst. cbn [last] in NE. cbn [concat] in R. rewrite app_nil_r in R. cbn [length] in LE. assert ((r =? r_end) = true) as -> by (apply Nat.eqb_eq; lia).
      rewrite (loop_all ws ms lines NE (asked_words _ _ A) SH GD). cbn [rbind deal_chan]. exists [ms]. split; [|reflexivity].
      split; [apply app_nil_r|]. split; [cbn [map]; rewrite R; reflexivity|constructor].
    + cbn [length] in LE. assert ((r =? r_end) = false) as -> by (apply Nat.eqb_neq; lia). cbn [concat] in R.
      destruct (loop_ok (concat rws') ws ms lines (asked_words _ _ A) SH GD R) as (ms1 & ms2 & l2 & -> & -> & SH2 & R1 & R2 & EN). cbn [rbind].
      apply Forall_app in GD. destruct GD as (G1 & G2).
      assert (NE' : last rws' [] <> []) by (inversion AS'; subst; exact NE).
      destruct (IH (r + 1) rws' ms2 l2 AS' ltac:(cbn [length]; lia) NE' SH2 G2 R2) as (mss & DL & ->). cbn [rbind]. exists (ms1 :: mss). split; [apply deals_cons; assumption|reflexivity].
Qed.

(** ** To the texts of the steps *)
Lemma texts_stp m : good m -> texts (stp m) = judged m.
Proof.
  intros (FR & FH). destruct m; cbn [stp texts judged option_map ref_of hyp_of] in *;
    repeat match goal with
    | H : Forall (ref_word e) [_] |- _ => let P := fresh in pose proof (Forall_inv H) as (P & _); clear H; rewrite ?(plain_wd _ P)
    | H : Forall (hyp_word e) [_] |- _ => let P := fresh in pose proof (Forall_inv H) as (P & _); clear H; rewrite ?(plain_wd _ P)
    end; reflexivity.
Qed.
Lemma side_stp m : good m -> ref_side (stp m) = ref_of m.
Proof.
  intros (FR & FH). destruct m; cbn [stp ref_side ref_of] in *; try (pose proof (Forall_inv FR) as (P & _); rewrite (plain_wd _ P)); reflexivity.
Qed.
Lemma sides ms : Forall good ms -> flat_map ref_side (map stp ms) = refs_of ms.
Proof. induction 1 as [|m ms G F IH]; [reflexivity|]. unfold refs_of in *. cbn [map flat_map]. rewrite side_stp, IH by exact G. reflexivity. Qed.
Lemma ends_stp ms : Forall good ms -> ends ms -> ends_with_ref (map stp ms).
Proof.
  intros G [->|(q & m & -> & X)]; [left; reflexivity|]. right. exists (map stp q), (stp m). split; [rewrite map_app; reflexivity|].
  apply Forall_app in G. destruct G as (_ & G). rewrite side_stp by exact (Forall_inv G). exact X.
Qed.
Lemma removelast_map {A B} (f : A -> B) l : removelast (map f l) = map f (removelast l).
Proof. induction l as [|a [|b l] IH]; [reflexivity|reflexivity|]. cbn [map removelast] in *. rewrite IH. reflexivity. Qed.
Lemma deals_dealt ms rws mss : Forall good ms -> deals ms rws mss -> dealt ms rws (map (map stp) mss).
Proof.
  intros G (<- & <- & D). assert (GS : Forall (Forall good) mss).
  { clear D. induction mss as [|a mss IH]; [constructor|]. cbn [concat] in G. apply Forall_app in G. destruct G. constructor; auto. }
  split; [|split].
  - clear - G. rewrite <- concat_map, map_map. induction G as [|m l H F IH]; [reflexivity|]. cbn [map]. rewrite texts_stp, IH by exact H. reflexivity.
  - clear - GS. induction GS as [|ms mss H F IH]; [constructor|]. cbn [map]. constructor; [apply sides, H|exact IH].
  - rewrite removelast_map. apply Forall_map. assert (GR : Forall (Forall good) (removelast mss)).
    { clear - GS. induction GS as [|a l H F IH]; [constructor|]. cbn [removelast]. destruct l; [constructor|constructor; assumption]. }
    clear - D GR. induction D as [|ms l E F IH]; [constructor|]. constructor; [apply ends_stp; [exact (Forall_inv GR)|exact E]|apply IH, (Forall_inv_tail GR)].
Qed.
Lemma moves_good ms : Forall (ref_word e) (flat_map ref_of ms) -> Forall (hyp_word e) (flat_map hyp_of ms) -> Forall good ms.
Proof.
  induction ms as [|m ms IH]; intros A B; [constructor|]. cbn [flat_map] in A, B. apply Forall_app in A, B. destruct A, B. constructor; [split; assumption|auto].
Qed.

(** ** The copies *)
Lemma copies : forall refs rws cap len m, Forall2 (asks e) refs rws -> (m = 99 /\ cap = 100 /\ len = 100 \/ 102 <= m /\ cap = m + 1 /\ len = m) ->
  (lengths_fit m (map (@length N) refs) -> ref_words e cap len refs = Ok (concat rws)) /\ (~ lengths_fit m (map (@length N) refs) -> ref_words e cap len refs = Undef).
Proof.
  induction refs as [|t refs IH]; intros rws cap len m AS ST.
  - inversion AS; subst. split; [reflexivity|]. intros X. exfalso. apply X. exact I.
  - inversion AS as [|? ws ? rws' A AS']; subst. cbn [map lengths_fit ref_words]. unfold copy. set (n := length t) in *. clearbody n.
    assert (TH : (if m =? 99 then 102 else m + 2) = len + 2).
    { destruct ST as [(-> & -> & ->)|(M & -> & ->)]; [reflexivity|]. assert ((m =? 99) = false) as -> by (apply Nat.eqb_neq; lia). reflexivity. }
    rewrite TH. assert (CM : cap = m + 1) by lia. rewrite (words_asked _ _ A). cbn [concat].
    destruct (Nat.ltb_spec (len + 1) n) as [L|L].
    + cbn [rbind]. destruct (IH rws' (n + 1) n n AS' ltac:(right; lia)) as (I1 & I2). split; intros H.
      * destruct H as [(X & _)|(_ & X)]; [exfalso; lia|]. rewrite (I1 X). reflexivity.
      * rewrite I2; [reflexivity|]. intros X. apply H. right. split; [lia|exact X].
    + destruct (Nat.leb_spec (n + 1) cap) as [M|M].
      * cbn [rbind]. destruct (IH rws' cap len m AS' ST) as (I1 & I2). split; intros H.
        -- destruct H as [(_ & X)|(X & _)]; [|exfalso; lia]. rewrite (I1 X). reflexivity.
        -- rewrite I2; [reflexivity|]. intros X. apply H. left. split; [lia|exact X].
      * split; intros H; [exfalso; lia|reflexivity].
Qed.
Lemma stm_asked refs rws : Forall2 (asks e) refs rws -> stm_words e refs = Ok (concat rws).
Proof. induction 1 as [|t ws refs rws A H IH]; [reflexivity|]. cbn [stm_words concat]. rewrite (words_asked _ _ A). cbn [rbind]. rewrite IH. reflexivity. Qed.
Lemma asked_all refs rws : Forall2 (asks e) refs rws -> Forall (ref_word e) (concat rws).
Proof. induction 1 as [|t ws refs rws A H IH]; [constructor|]. cbn [concat]. apply Forall_app. split; [exact (asked_words _ _ A)|exact IH]. Qed.
Lemma said_all hyps hws : Forall2 (says e) hyps hws -> Forall (hyp_word e) (concat hws).
Proof. induction 1 as [|t ws refs rws A H IH]; [constructor|]. cbn [concat]. apply Forall_app. split; [exact (proj1 A)|exact IH]. Qed.
End E.
