(** The network of a text says its readings. *)
From Coq Require Import List NArith ZArith Arith Bool Lia.
From Verif Require Import Base Net_Model Net_Spec Net_Proofs1 Net_Proofs2 Net_Proofs3 Merge_Model Merge_Spec Merge_Proofs3
  Text_Model Text_Spec Text_Proofs1 Text_Proofs2 Text_Proofs3 Word_Model Anet_Model Anet_Spec Anet_Proofs1 Anet_Proofs2 Anet_Proofs3.
Import ListNotations.
Local Open Scope res_scope.

Lemma mem_false x l : ~ In x l -> Net_Model.mem x l = false.
Proof. intros H. unfold Net_Model.mem. apply not_true_is_false. intros E. apply existsb_exists in E. destruct E as (y & I & E). apply Nat.eqb_eq in E. subst y. contradiction. Qed.
Section Trav.
Variable e : enc.
Variable create1 : list N -> res (net word).
Definition says_ok (w : word) (L : list (option word) -> Prop) : Prop :=
  (has_brace (w_value w) = false /\ forall d, L d <-> d = [Some w]) \/
  (has_brace (w_value w) = true /\ exists M tm, alt_nets e create1 (S (length (inside (w_value w)))) None (inside (w_value w)) = Ok (Some M) /\
     wf_net M /\ n_stop M = Some tm /\ forall d, L d <-> nsays M d).
Lemma trav_ok todo : forall fuel G c t seen ws Ls, inv G c todo t -> length todo < fuel -> (forall v, In v (map (n_to G) todo) -> ~ In v seen) ->
  Forall2 (fun x w => n_data G x = Some w) todo ws -> Forall2 says_ok ws Ls ->
  exists G', expand_trav e create1 fuel G [c] seen = Ok G' /\ wf_net G' /\ n_stop G' = Some t /\
    (forall a, nsays G' a <-> exists b ds, lang G todo b /\ Forall2 (fun L d => L d) Ls ds /\ a = b ++ concat ds).
Proof.
  induction todo as [|x todo IH]; intros fuel G c t seen ws Ls IV LF NS FD FL; destruct fuel as [|f]; cbn [length] in LF; try lia.
  - inversion FD; subst. inversion FL; subst. destruct (iv_row _ _ _ _ IV) as [-> O]. exists G. cbn [expand_trav]. rewrite O. cbn [push_all rbind].
    split; [destruct f; reflexivity|]. split; [apply (iv_wf _ _ _ _ IV)|]. split; [apply (iv_stop _ _ _ _ IV)|]. intros a. rewrite (nsays_full G t) by apply (iv_stop _ _ _ _ IV). split.
    + intros (xs & F & ->). exists (map (n_data G) xs), []. split; [exists xs; rewrite app_nil_r; auto|]. split; [constructor|]. cbn. rewrite app_nil_r. reflexivity.
    + intros (b & ds & (p & F & ->) & FF & ->). inversion FF; subst. rewrite app_nil_r in F. exists p. cbn. rewrite app_nil_r. auto.
  - inversion FD as [|? w ? ws' DX FD']; subst. inversion FL as [|? L ? Ls' AX FL']; subst. destruct (iv_row _ _ _ _ IV) as [O R]. cbn [expand_trav]. rewrite O. cbn [push_all].
    rewrite (mem_false (n_to G x) seen) by (apply NS; left; reflexivity). cbn [arcs_loop]. rewrite O. cbn [next_of hd_error]. rewrite Nat.eqb_refl. unfold expand. rewrite DX.
    assert (SEEN : forall v, In v (map (n_to G) todo) -> ~ In v (n_to G x :: seen)).
    { intros v I [E|J]; [|apply (NS v); [right; exact I|exact J]]. subst v. exact (row_not_c G todo t _ (iv_wf _ _ _ _ IV) R I). }
    destruct AX as [[HB HL]|(HB & M & tm & EA & WM & EM & HL)]; rewrite HB.
    + cbn [rbind]. destruct (keep_step G c x todo t IV) as [IV2 LG]. destruct (IH f G (n_to G x) t (n_to G x :: seen) ws' Ls' IV2) as (G' & E & W' & S' & SA); try assumption; try lia.
      exists G'. split; [exact E|]. split; [exact W'|]. split; [exact S'|]. intros a. rewrite SA. split.
      * intros (b & ds & LB & FF & ->). apply LG in LB. destruct LB as (b' & LB & ->). exists b', ([n_data G x] :: ds). split; [exact LB|]. split; [constructor; [apply HL; rewrite DX; reflexivity|exact FF]|].
        rewrite <- app_assoc. reflexivity.
      * intros (b & ds & LB & FF & ->). inversion FF as [|? d ? ds' H1 FF']; subst. apply HL in H1. subst d. exists (b ++ [n_data G x]), ds'. split; [apply LG; eauto|]. split; [exact FF'|].
        rewrite DX, <- app_assoc. reflexivity.
    + rewrite EA. cbn [rbind]. destruct (replace_step G c x todo t M tm IV WM EM) as (N' & -> & IV2 & TD & LG). cbn [rbind].
      assert (MT : map (n_to N') todo = map (n_to G) todo) by (apply map_ext_in; intros y I; apply TD; right; exact I).
      assert (FD2 : Forall2 (fun x w => n_data N' x = Some w) todo ws').
      { assert (TD2 : forall y, In y todo -> n_data N' y = n_data G y) by (intros y I; apply TD; right; exact I). clear - FD' TD2.
        induction FD' as [|y v l ws H F IH]; constructor; [rewrite TD2 by (left; reflexivity); exact H|apply IH; intros z I; apply TD2; right; exact I]. }
      destruct (IH f N' (n_to G x) t (n_to G x :: seen) ws' Ls' IV2) as (G' & E & W' & S' & SA); try assumption; [lia|rewrite MT; exact SEEN|].
      exists G'. split; [exact E|]. split; [exact W'|]. split; [exact S'|]. intros a. rewrite SA. split.
      * intros (b & ds & LB & FF & ->). apply LG in LB. destruct LB as (b' & d & LB & SM & ->). exists b', (d :: ds). split; [exact LB|]. split; [constructor; [apply HL; exact SM|exact FF]|].
        cbn [concat]. rewrite <- app_assoc. reflexivity.
      * intros (b & ds & LB & FF & ->). inversion FF as [|? d ? ds' H1 FF']; subst. apply HL in H1. exists (b ++ d), ds'. split; [apply LG; eauto|]. split; [exact FF'|].
        cbn [concat]. rewrite <- app_assoc. reflexivity.
Qed.
Lemma words_row toks ws : Forall2 (fun t w => token_word e t = Ok w) toks ws -> forall G vs, rowof G vs -> exists G', add_words e G toks = Ok G' /\ rowof G' (vs ++ ws).
Proof.
  induction 1 as [|t w toks ws H F IH]; intros G vs R; cbn [add_words].
  - exists G. rewrite app_nil_r. auto.
  - rewrite H. cbn [rbind]. destruct (IH _ _ (rowof_tail G vs w R)) as (G' & E & R'). exists G'. rewrite <- app_assoc in R'. auto.
Qed.
(** From the first node. *)
Lemma row_trav G ws Ls : rowof G ws -> Forall2 says_ok ws Ls ->
  exists G', expand_trav e create1 (S (n_nodes G)) G [n_start G] [n_start G] = Ok G' /\ wf_net G' /\ (n_stop G' = None <-> ws = []) /\
    (forall a, nsays G' a <-> exists ds, Forall2 (fun L d => L d) Ls ds /\ a = concat ds).
Proof.
  intros [W [[-> E]|(t & l & E & R & FD & LL)]] FL.
  - inversion FL; subst. pose proof (wf_stop G W) as ST. rewrite E in ST. exists G. cbn [expand_trav]. rewrite ST. cbn [push_all rbind]. split; [destruct (n_nodes G); reflexivity|].
    split; [exact W|]. split; [tauto|]. intros a. unfold nsays. rewrite E. split; [intros ->; exists []; split; constructor|]. intros (ds & F & ->). inversion F; subst. reflexivity.
  - assert (IV : inv G (n_start G) l t).
    { split; try assumption. intros ys F. apply (row_full G l t W E R) in F. subst ys. exists []. split; [reflexivity|]. intros y _ []. }
    destruct (trav_ok l (S (n_nodes G)) G (n_start G) t [n_start G] ws Ls IV) as (G' & EQ & W' & S' & SA); try assumption; [lia| |].
    + intros v I [<-|[]]. exact (row_not_c G l t _ W R I).
    + exists G'. split; [exact EQ|]. split; [exact W'|]. split.
      * rewrite S'. split; [discriminate|]. intros ->. inversion FD; subst. pose proof (wf_stop G W) as ST. rewrite E in ST. destruct ST as (_ & _ & NE & _). destruct R as [R _]. congruence.
      * intros a. rewrite SA. assert (FR : forall p, full G (p ++ l) <-> p = []).
        { intros p. rewrite (row_full G l t W E R). split; [|intros ->; reflexivity]. intros H. apply (app_inv_tail l p []). exact H. }
        split; [intros (b & ds & (p & F & ->) & FF & ->); apply FR in F; subst p; eauto|]. intros (ds & FF & ->). exists [], ds. split; [exists []; split; [apply FR; reflexivity|reflexivity]|auto].
Qed.
(** The alternatives beside each other. *)
Lemma join_ok (Ls : list (list (option word) -> Prop)) ps : Forall2 (fun p (L : list (option word) -> Prop) => exists M, create1 (cstr (concat p)) = Ok M /\ wf_net M /\ n_stop M <> None /\ forall d, nsays M d <-> L d) ps Ls ->
  forall acc La, wf_net acc -> n_stop acc <> None -> (forall d, nsays acc d <-> La d) ->
  exists M, join_all create1 (Some acc) ps = Ok (Some M) /\ wf_net M /\ n_stop M <> None /\ (forall d, nsays M d <-> La d \/ exists L, In L Ls /\ L d).
Proof.
  induction 1 as [|p L ps Ls (M & EM & WM & SM & HM) F IH]; intros acc La WA SA HA; cbn [join_all].
  - exists acc. split; [reflexivity|]. split; [exact WA|]. split; [exact SA|]. intros d. rewrite HA. split; [auto|]. intros [H|(L & [] & _)]. exact H.
  - rewrite EM. cbn [rbind]. destruct (n_stop acc) as [t|] eqn:EA; [|congruence]. destruct (n_stop M) as [tm|] eqn:ET; [|congruence].
    destruct (beside_ok acc M t tm WA WM EA ET) as (A2 & -> & W2 & S2 & H2). cbn [rbind].
    destruct (IH A2 (fun d => La d \/ L d) W2) as (M' & E' & W' & S' & H'); [congruence|intros d; rewrite H2, HA, HM; reflexivity|].
    exists M'. split; [exact E'|]. split; [exact W'|]. split; [exact S'|]. intros d. rewrite H'. cbn [In]. split.
    + intros [[H|H]|(L' & I & H)]; [auto|right; exists L; auto|right; exists L'; auto].
    + intros [H|(L' & [<-|I] & H)]; [auto|auto|right; eauto].
Qed.
End Trav.
(** ** Alternatives are made of the same characters *)
Lemma parts_chars cs : forall d cur p, In p (parts d cur cs) -> forall c, In c p -> In c cur \/ In c cs.
Proof.
  induction cs as [|x cs IH]; intros d cur p I c J; cbn [parts] in I; [destruct I as [<-|[]]; auto|].
  assert (K : forall d', In p (parts d' (cur ++ [x]) cs) -> In c cur \/ In c (x :: cs)).
  { intros d' I'. destruct (IH _ _ _ I' c J) as [H|H]; [|right; right; exact H]. apply in_app_iff in H. destruct H as [H|[->|[]]]; [auto|right; left; reflexivity]. }
  destruct (list_eq_dec N.eq_dec x [47%N]); [|exact (K _ I)]. destruct (d <=? 0)%Z; [|exact (K _ I)]. destruct I as [<-|I]; [auto|]. destruct (IH _ _ _ I c J) as [[]|H]. right. right. exact H.
Qed.
Lemma strip_sub p : forall c, In c (strip p) -> In c p.
Proof. induction p as [|x p IH]; intros c H; [exact H|]. cbn [strip] in H. destruct (is_space x); [right; apply IH, H|exact H]. Qed.
Lemma strip_first p c r : strip p = c :: r -> is_space c = false.
Proof. induction p as [|x p IH]; intros E; [discriminate|]. cbn [strip] in E. destruct (is_space x) eqn:S; [exact (IH E)|]. injection E as -> _. exact S. Qed.
Lemma alternatives_chars e inner a : Forall (is_char e) inner -> In a (alternatives inner) -> Forall (is_char e) a /\ ~ Forall space_char a.
Proof.
  intros HC I. unfold alternatives in I. apply filter_In in I. destruct I as [I NE]. apply in_map_iff in I. destruct I as (p & <- & I). split.
  - apply Forall_forall. intros c J. rewrite Forall_forall in HC. apply HC. destruct (parts_chars _ _ _ _ I c (strip_sub p c J)) as [[]|H]. exact H.
  - destruct (strip p) as [|c r] eqn:E; [discriminate|]. pose proof (strip_first p c r E) as S. intros F. inversion F as [|? ? SC _]; subst. apply is_space_ok in SC. congruence.
Qed.
Lemma char_count e (cs : chars) : Forall (is_char e) cs -> length cs <= length (concat cs).
Proof. induction 1 as [|c cs H _ IH]; [apply le_n|]. cbn [concat length]. rewrite app_length. destruct H as (l & r & -> & _). cbn [length]. lia. Qed.
Lemma braces_inj a b : braces a = braces b -> a = b.
Proof. intros E. unfold braces in E. injection E as E. apply app_inj_tail in E. apply E. Qed.
Definition toklang (e : enc) (tok : chars) (d : list (option word)) : Prop := exists r, tokreads e tok r /\ d = map Some r.
Lemma tok_ok e n : (forall cs, proper e n cs -> Forall (is_char e) cs -> exists G, create n e (cstr (concat cs)) = Ok G /\ wf_net G /\ (n_stop G = None <-> Forall space_char cs) /\
    (forall a, nsays G a <-> exists r, reads e cs r /\ a = map Some r)) ->
  forall tok, ptok e n tok -> Forall (is_char e) tok -> exists w, token_word e (concat tok) = Ok w /\ says_ok e (create n e) w (toklang e tok).
Proof.
  intros IH tok (LT & [[NB (w & (p & EP & ->) & N123)]|(inner & -> & D & BA & NA & PA)]) HC.
  - exists (word_of p). split; [unfold token_word; rewrite EP; reflexivity|]. left. split.
    + unfold has_brace. apply not_true_is_false. intros E. apply existsb_exists in E. destruct E as (b & I & E). apply N.eqb_eq in E. subst b. contradiction.
    + intros d. unfold toklang. split.
      * intros (r & [[_ (w & (p' & EP' & ->) & ->)]|(inner & a & -> & _)] & ->); [rewrite EP in EP'; injection EP' as <-; reflexivity|]. exfalso. exact (NB _ eq_refl).
      * intros ->. exists [word_of p]. split; [|reflexivity]. left. split; [exact NB|]. exists (word_of p). split; [exists p; auto|reflexivity].
  - pose proof (group_word e inner HC) as GW. eexists. split; [unfold token_word; rewrite GW; reflexivity|]. right. rewrite group_value, inside_braces. split; [reflexivity|].
    assert (HI : Forall (is_char e) inner). { unfold braces in HC. inversion HC as [|? ? _ HC']; subst. apply Forall_app in HC'. tauto. }
    assert (LI : length (concat inner) < MAXSTRING).
    { unfold braces in LT. cbn [concat app length] in LT. rewrite concat_app, app_length in LT. lia. }
    rewrite (alt_nets_ok e (create n e) (length inner) inner _ None [0%N] []); [|apply le_n|exact HI|split; assumption|exact LI| |constructor].
    2:{ rewrite app_length. pose proof (char_count e inner HI). lia. }
    rewrite <- alternatives_eq.
    assert (EACH : Forall (fun a => exists M, create n e (cstr (concat a)) = Ok M /\ wf_net M /\ n_stop M <> None /\ forall d, nsays M d <-> exists r, reads e a r /\ d = map Some r) (alternatives inner)).
    { apply Forall_forall. intros a I. destruct (alternatives_chars e inner a HI I) as [CA NS]. destruct (IH a (PA a I) CA) as (M & EM & WM & SM & HM). exists M.
      split; [exact EM|]. split; [exact WM|]. split; [intros E; apply NS, SM, E|exact HM]. }
    assert (TL : forall d, toklang e (braces inner) d <-> exists a, In a (alternatives inner) /\ exists r, reads e a r /\ d = map Some r).
    { intros d. unfold toklang. split.
      - intros (r & [[NB _]|(inner' & a & E & _ & I & R)] & ->); [exfalso; exact (NB _ eq_refl)|]. apply braces_inj in E. subst inner'. eauto.
      - intros (a & I & r & R & ->). exists r. split; [|reflexivity]. right. exists inner, a. auto. }
    destruct (alternatives inner) as [|a0 al] eqn:EA; [congruence|]. inversion EACH as [|? ? (M0 & E0 & W0 & S0 & H0) EACH']; subst. cbn [join_all]. rewrite E0. cbn [rbind].
    assert (F2 : Forall2 (fun p (L : list (option word) -> Prop) => exists M, create n e (cstr (concat p)) = Ok M /\ wf_net M /\ n_stop M <> None /\ forall d, nsays M d <-> L d) al
      (map (fun a d => exists r, reads e a r /\ d = map Some r) al)).
    { clear - EACH'. induction EACH' as [|a al H _ IH]; cbn [map]; constructor; [exact H|exact IH]. }
    destruct (join_ok (create n e) _ al F2 M0 (fun d => exists r, reads e a0 r /\ d = map Some r) W0 S0 H0) as (M & -> & WM & SM & HM).
    destruct (n_stop M) as [tm|] eqn:ET; [|congruence]. exists M, tm. split; [reflexivity|]. split; [exact WM|]. split; [exact ET|]. intros d. rewrite TL, HM. split.
    + intros (a & [<-|I] & H); [left; exact H|]. right. exists (fun d => exists r, reads e a r /\ d = map Some r). split; [apply (in_map (fun a d => exists r, reads e a r /\ d = map Some r)), I|exact H].
    + intros [H|(L & I & H)]; [exists a0; split; [left; reflexivity|exact H]|]. apply in_map_iff in I. destruct I as (a & <- & I). exists a. split; [right; exact I|exact H].
Qed.
Lemma create_ok e n : forall cs, proper e n cs -> Forall (is_char e) cs -> forall j, exists G, create n e (concat cs ++ 0%N :: j) = Ok G /\ wf_net G /\ (n_stop G = None <-> Forall space_char cs) /\
    (forall a, nsays G a <-> exists r, reads e cs r /\ a = map Some r).
Proof.
  induction n as [|n IH]; intros cs P HC j; [inversion P|]. destruct (proper_tokens e n cs P) as (ts & TK & FP).
  assert (HT : Forall (Forall (is_char e)) ts).
  { clear - TK HC. induction TK as [ws W|ws tok rest ts W T TK IH]; constructor; apply Forall_app in HC as [_ HC]; apply Forall_app in HC as [H1 H2]; [exact H1|apply IH, H2]. }
  assert (TO : tokens e MAXSTRING MAXSTRING (concat cs ++ 0%N :: j) = Ok (map (@concat _) ts)).
  { unfold tokens. apply tokens_cap; [exact TK|exact max_pos|exact HC| |rewrite app_length; pose proof (char_count e cs HC); lia].
    eapply Forall_impl; [|exact FP]. intros tok (LT & H). split; [exact LT|]. intros [D (t & ET)]. destruct H as [[NB _]|(inner & -> & D0 & _)]; [exact (NB t ET)|]. rewrite braces_depth in D. lia. }
  assert (TOKS : Forall (fun tok => exists w, token_word e (concat tok) = Ok w /\ says_ok e (create n e) w (toklang e tok)) ts).
  { apply Forall_forall. intros tok I. rewrite Forall_forall in FP, HT. apply tok_ok; [|apply FP, I|apply HT, I]. intros cs' P' HC'. exact (IH cs' P' HC' []). }
  assert (WS : exists ws, Forall2 (fun t w => token_word e t = Ok w) (map (@concat _) ts) ws /\ Forall2 (says_ok e (create n e)) ws (map (toklang e) ts)).
  { clear - TOKS. induction TOKS as [|tok ts (w & E & S) _ (ws & A & B)]; [exists []; split; constructor|]. exists (w :: ws). cbn [map]. split; constructor; assumption. }
  destruct WS as (ws & F1 & F2). destruct (words_row e _ ws F1 net_init []) as (G0 & E0 & R0).
  { split; [apply wf_init|]. left. auto. }
  cbn [app] in R0. destruct (row_trav e (create n e) G0 ws _ R0 F2) as (G & EG & WG & SG & HG). exists G.
  split; [cbn [create]; rewrite TO; cbn [rbind]; rewrite E0; cbn [rbind]; exact EG|]. split; [exact WG|]. split.
  - rewrite SG. assert (ws = [] <-> ts = []) as ->.
    { clear - F1. destruct ts; inversion F1; subst; split; congruence. }
    inversion TK as [ws' W E1 E2|ws' tok rest ts' W T TK' E1 E2]; subst; [tauto|]. split; [discriminate|]. intros F. exfalso. exact (no_token e _ ws' tok rest HC eq_refl W T F).
  - intros a. rewrite HG. split.
    + intros (ds & FF & ->). assert (H : exists rs, Forall2 (tokreads e) ts rs /\ ds = map (map Some) rs).
      { clear - FF. remember (map (toklang e) ts) as Ls eqn:E. revert ts E. induction FF as [|L d Ls ds H FF IH]; intros ts E; destruct ts as [|tok ts]; try discriminate; [exists []; split; constructor|].
        cbn [map] in E. injection E as -> E. destruct (IH ts E) as (rs & F & ->). destruct H as (r & H & ->). exists (r :: rs). split; [constructor; assumption|reflexivity]. }
      destruct H as (rs & F & ->). exists (concat rs). split; [apply (reads_tokens e cs ts HC TK); eauto|]. rewrite concat_map. reflexivity.
    + intros (r & R & ->). apply (reads_tokens e cs ts HC TK) in R. destruct R as (rs & F & ->). exists (map (map Some) rs). split; [|rewrite concat_map; reflexivity].
      clear - F. induction F as [|tok r ts rs H F IH]; cbn [map]; constructor; [exists r; auto|exact IH].
Qed.
