(** The network of the characters. *)
From Coq Require Import List NArith ZArith Arith Bool Lia.
From Verif Require Import Base Net_Model Net_Spec Merge_Model Merge_Spec Text_Model Text_Spec Word_Model Case_Model
  Word_Spec Anet_Model Anet_Spec Anet_Proofs1 Anet_Proofs3 Anet_Proofs5 Anet_Proofs6 Sep_Model Sep_Spec Sep_Thm Cnet_Model Cnet_Spec Cnet_Proofs1 Cnet_Proofs2 Cnet_Proofs3 Cnet_Proofs4.
Import ListNotations.
Local Open Scope res_scope.

Lemma byte_last : forall (r : list N) (b : N), rd (skipn (length r) (b :: r ++ [0%N])) = Ok (last (b :: r) 0%N).
Proof. induction r as [|c r IH]; intros b; [reflexivity|]. cbn [length skipn app]. rewrite IH. reflexivity. Qed.
Lemma decode_ok w : w_value w <> [] -> decode_opt_del w = Ok (decode w).
Proof.
  intros NE. unfold decode_opt_del, decode. destruct (w_value w) as [|b [|c r]] eqn:EV; [congruence| |].
  - unfold last_byte, byte_at, cstr. cbn [length app skipn rd rbind]. destruct (N.eqb_spec b 41) as [->|]; reflexivity.
  - unfold last_byte. cbn [length]. unfold byte_at, cstr. cbn [app skipn rd]. rewrite byte_last. cbn [rbind].
    rewrite andb_comm. destruct ((b =? 40)%N && (last (c :: r) 0 =? 41)%N); [|reflexivity]. repeat f_equal.
    cbn [Nat.sub]. rewrite Nat.sub_0_r. rewrite removelast_firstn_len. reflexivity.
Qed.
Lemma shape_npath {D} (G G' : net D) : same_shape G G' -> forall xs u v, npath G u xs v <-> npath G' u xs v.
Proof.
  intros (F & T & _ & O & _) xs. induction xs as [|x xs IH]; intros u v; split; intros H; inversion H; subst.
  - constructor.
  - constructor.
  - constructor; [rewrite O; assumption|]. rewrite T. apply IH. assumption.
  - constructor; [rewrite <- O; assumption|]. rewrite <- T. apply IH. assumption.
Qed.
Lemma no_stop {D} (G : net D) : wf_net G -> n_stop G = None -> forall u, n_out G u = [].
Proof. intros W E u. destruct (n_out G u) as [|x l] eqn:EO; [reflexivity|]. destruct (wf_coreach G W x u) as (t & xs & K & _); [rewrite EO; left; reflexivity|congruence]. Qed.
Lemma path_arcs {D} (G : net D) : forall xs u v, npath G u xs v -> Forall (arc_of G) xs.
Proof. induction xs as [|x xs IH]; intros u v H; inversion H; subst; constructor; [eexists; eassumption|eauto]. Qed.

Section Net.
Variables (e : enc) (p : profile) (na dh od : bool) (junk : N) (share : Z -> nat -> Z) (free fuel : nat) (GU : p = Guarani -> e = GB \/ e = UTF8).
Lemma chars_network G buf : wf_net G ->
  (forall u x, In x (n_out G u) -> exists w, n_data G x = Some w /\ w_value w <> [] /\ spellable e p dh (decoded od w) /\ (w_opt_del (decoded od w) = true -> n_out G u = [x])) ->
  10 <= length buf -> n_nodes G + 2 * n_arcs G + 1 < fuel -> MAXSTRING + 1 < fuel ->
  exists G' buf', by_chars e p na dh od junk share (S free) fuel G buf = Ok (G', buf') /\ wf_net G' /\ 10 <= length buf' /\ (n_stop G' = None <-> n_stop G = None) /\
    forall a, nsays G' a <-> exists r wss, nsays G (map Some r) /\ Forall2 (fun w ws => spelled e p na dh share (decoded od w) ws) r wss /\ a = map Some (concat wss).
Proof.
  intros W HW RB FU FM.
  assert (FIRST : exists G1, (if od then traverse_op (word_op decode_op) fuel G tt else Ok (G, tt)) = Ok (G1, tt) /\ wf_net G1 /\ same_shape G G1 /\ forall x, arc_of G x -> n_data G1 x = option_map (decoded od) (n_data G x)).
  { destruct od.
    - apply (map_words decode_op decode G fuel W); [|exact FU]. intros x (u & Hx). destruct (HW u x Hx) as (w & DW & NE & _). exists w. split; [exact DW|]. unfold decode_op. rewrite (decode_ok w NE). reflexivity.
    - exists G. split; [reflexivity|]. split; [exact W|]. split; [apply shape_refl|]. intros x _. unfold decoded. destruct (n_data G x); reflexivity. }
  destruct FIRST as (G1 & E1 & W1 & SH & D1). unfold by_chars. rewrite E1. cbn [rbind].
  assert (SH' := SH). destruct SH' as (SF & ST & SI & SO & SS & SP & SN & SA).
  destruct (n_stop G) as [t|] eqn:EN.
  - destruct (dag_op (expand_chars e p na dh junk share (S free) fuel) room G1 W1 (says_of e p na dh share G1)) with (fuel := fuel) (s := buf) as (G' & buf' & E & R' & W' & _ & SP' & SY).
    + intros x (u & Hx). rewrite SO in Hx. destruct (HW u x Hx) as (w & DW & NE & SPL & OP). pose proof (D1 x (ex_intro _ u Hx)) as DX. rewrite DW in DX. cbn [option_map] in DX.
      apply (arc_ok e p na dh junk share free fuel GU G1 x (decoded od w) FM DX SPL). intros K. rewrite SO, SF. rewrite (proj1 (wf_out G W x u Hx)). exact (OP K).
    + exact RB.
    + rewrite SN, SA. exact FU.
    + rewrite SP. discriminate.
    + exists G', buf'. split; [exact E|]. split; [exact W'|]. split; [exact R'|]. split; [rewrite SP', SP; split; discriminate|].
      intros a. rewrite SY. unfold nsays. rewrite EN. split.
      * intros (xs & ds & (t' & ET & PT) & FA & ->). rewrite SP in ET. injection ET as <-. rewrite SS in PT. apply (shape_npath G G1 SH) in PT.
        pose proof (path_arcs G xs _ _ PT) as AR.
        assert (K : exists r wss, map (n_data G) xs = map Some r /\ Forall2 (fun w ws => spelled e p na dh share (decoded od w) ws) r wss /\ concat ds = map Some (concat wss)).
        { clear PT. induction FA as [|x d xs ds HD FA IH]; [exists [], []; repeat split; constructor|].
          destruct (IH (Forall_inv_tail AR)) as (r & wss & I1 & I2 & I3). pose proof (D1 x (Forall_inv AR)) as DX. destruct HD as (w & ws & DW & SPL & ->).
          rewrite DW in DX. destruct (n_data G x) as [w0|] eqn:E0; [|discriminate]. cbn [option_map] in DX. injection DX as ->.
          exists (w0 :: r), (ws :: wss). cbn [map concat]. rewrite E0, I1, I3, map_app. repeat split. constructor; assumption. }
        destruct K as (r & wss & K1 & K2 & K3). exists r, wss. split; [exists xs; auto|]. split; [exact K2|exact K3].
      * intros (r & wss & (xs & PT & EM) & FA & ->). pose proof (path_arcs G xs _ _ PT) as AR. exists xs, (map (map Some) wss). split; [exists t; split; [exact SP|]; rewrite SS; apply (shape_npath G G1 SH); exact PT|].
        split; [|rewrite concat_map; reflexivity]. clear PT. revert xs EM AR. induction FA as [|w ws r wss HS FA IH]; intros xs EM AR; destruct xs as [|x xs]; try discriminate; [constructor|].
        cbn [map] in *. injection EM as EX EM. constructor; [|apply IH; [exact EM|exact (Forall_inv_tail AR)]].
        exists (decoded od w), ws. split; [|split; [exact HS|reflexivity]]. rewrite (D1 x (Forall_inv AR)), EX. reflexivity.
  - pose proof (no_stop G1 W1 SP) as NO. exists G1, buf. split.
    + unfold traverse_op. destruct fuel as [|f]; [lia|]. cbn [trav_op]. rewrite NO. cbn [push_all rbind]. destruct f; reflexivity.
    + split; [exact W1|]. split; [exact RB|]. split; [rewrite SP; tauto|]. intros a. unfold nsays. rewrite EN, SP. split.
      * intros ->. exists [], []. repeat split; constructor.
      * intros (r & wss & ER & FA & ->). destruct r; [|discriminate]. inversion FA; subst. reflexivity.
Qed.
End Net.

(** ** The words made *)
Section Fine.
Variables (e : enc) (p : profile) (na dh : bool) (share : Z -> nat -> Z) (GU : p = Guarani -> e = GB \/ e = UTF8).
Lemma spelled_fine w ws : fine e w -> spellable e p dh w -> spelled e p na dh share w ws -> Forall (fine e) ws.
Proof.
  intros FW SP H. unfold spelled in H. destruct (Nat.leb (length (w_value w)) 1) eqn:EL; [subst ws; auto|]. apply Nat.leb_gt in EL. destruct H as (ps & PI & ->).
  destruct (list_eq_dec (list_eq_dec N.eq_dec) ps [w_value w]) as [_|_]; [auto|].
  destruct SP as [SP|(cs & us & CO & FL & U & _)]; [lia|].
  assert (FC : Forall (lchar e) cs). { destruct CO as [_ HC]. clear - FL HC. induction HC as [|c l H HC IH]; constructor; [split; [exact H|exact (Forall_inv FL)]|apply IH, (Forall_inv_tail FL)]. }
  assert (EP : ps = map (@concat N) (runs e na (kept dh us))). { apply (pieces_unique e p na dh (text_of w)); [exact PI|exists cs, us; auto]. }
  pose proof (runs_units e p na dh GU cs us U FC) as RU. destruct FW as ((OD & _) & _). subst ps.
  generalize (share (w_dur w) (length (map (concat (A:=N)) (runs e na (kept dh us))))). intros d. generalize 0. clear - RU OD GU.
  induction RU as [|g gs H RU IH]; intros i; cbn [map piece_words]; constructor; [|apply IH].
  destruct (piece_star e p na dh g H) as (g' & PG & EG). destruct (piece_tok e p na dh GU g' PG) as (tok & FT & NE & EC & _).
  assert (GT : good_text e (starless (concat g))).
  { rewrite <- EG, <- EC. split.
    - destruct tok as [|c tok]; [congruence|]. pose proof (Forall_inv FT) as ((l & r & -> & _) & _). discriminate.
    - exists tok. split; [reflexivity|]. eapply Forall_impl; [|exact FT]. intros c Hc. apply Hc. }
  split; [split; [exact OD|reflexivity]|]. unfold piece_word, good_word, text_is. cbn [w_value w_opt_del w_intern]. rewrite OD. split; [apply GT|]. exists (starless (concat g)). split; [left; auto|exact GT].
Qed.
Lemma decode_fresh od w : fresh w -> w_opt_del (decoded od w) = false -> decoded od w = w.
Proof.
  intros _. unfold decoded, decode. destruct od; [|reflexivity]. destruct (w_value w) as [|b [|c r]]; try reflexivity. destruct ((b =? 40)%N && (last (c :: r) 0 =? 41)%N); [discriminate|reflexivity].
Qed.
End Fine.

(** ** Two optional words at a node *)
Definition opt1 (w : word) : Prop := w_opt_del w = true /\ exists b, (97 <= b <= 122)%N /\ w_intern w = Some [b] /\ w_value w = [40; b; 41]%N.
Section Forever.
Variables (junk : N) (share : Z -> nat -> Z) (free fuel : nat).
Hypothesis FM : MAXSTRING + 1 < fuel.
Let op := expand_chars ASCII Generic false false junk share (S free) fuel.
Lemma opt1_step w : opt1 w -> exists w', opt1 w' /\ forall G x buf, n_data G x = Some w -> room buf -> exists buf' M, room buf' /\ rowof' M [w'] /\
  op G x buf = (let* G' := replace_arc G x M in Ok (G', buf')).
Proof.
  intros (OD & b & B & IN & EV). assert (ET : text_of w = [b]) by (unfold text_of; rewrite OD, IN; reflexivity).
  destruct (expand_long ASCII Generic false false junk share free fuel ltac:(discriminate) w [[b]] [[b]]) as (gs & _ & _ & _ & K).
  - rewrite ET. split; [reflexivity|]. constructor; [|constructor]. exists b, []. split; [reflexivity|]. split; [cbn; lia|constructor; [lia|constructor]].
  - constructor; [|constructor]. split; [|split].
    + split; [intros K; cbn in K; lia|]. split; intros K; cbn in K; intuition lia.
    + intros (c & K & S). injection K as <-. unfold space in S. lia.
    + intros K. injection K as ->. lia.
  - apply units_char; [discriminate|constructor].
  - unfold kept. cbn [filter andb negb]. discriminate.
  - rewrite ET. cbn [length]. unfold MAXSTRING. lia.
  - intros _. rewrite ET. split; [exact IN|exact EV].
  - rewrite EV. cbn. lia.
  - exact FM.
  - change (kept false [[b]]) with [[b]] in K. cbn [runs map concat app] in K. exists (piece_word w (share (w_dur w) 1) 0 [b]). split.
    + split; [exact OD|]. exists b. split; [exact B|]. unfold piece_word. cbn [w_intern w_value starless app]. rewrite OD. auto.
    + intros G x buf D R. destruct (K G x buf D R) as (buf' & R' & E). rewrite EV in E. destruct (list_eq_dec (list_eq_dec N.eq_dec) [[b]] [[40%N; b; 41%N]]) as [Q|_]; [discriminate|].
      destruct E as (M & RM & E). exists buf', M. auto.
Qed.
Lemma forever u : forall f G x y w1 w2 buf, wf_net G -> n_out G u = [x; y] -> n_data G x = Some w1 -> n_data G y = Some w2 -> opt1 w1 -> opt1 w2 -> room buf ->
  arcs_op op f G u x buf = NoFuel.
Proof.
  induction f as [|f IH]; intros G x y w1 w2 buf W O D1 D2 P1 P2 R; [reflexivity|]. cbn [arcs_op]. rewrite O. cbn [next_of]. rewrite Nat.eqb_refl. cbn [hd_error].
  destruct (opt1_step w1 P1) as (w' & P' & K). destruct (K G x buf D1 R) as (buf' & M & R' & RM & E). rewrite E.
  pose proof RM as (WM & t & l & EM & _). assert (AX : arc_of G x) by (exists u; rewrite O; left; reflexivity).
  assert (FU : n_from G x = u) by (apply (wf_out G W x u); rewrite O; left; reflexivity).
  destruct (replace_full G M x t W WM EM AX) as (G' & ER & W' & _ & _ & _ & _ & _ & DO & DN & _). rewrite ER. cbn [rbind].
  destruct (row_head M w' [] RM) as (z & EZ & DZ).
  pose proof (replace_out G M x t W WM EM AX G' ER [] [y]) as RO. rewrite FU, O in RO. specialize (RO eq_refl). rewrite EZ in RO. cbn [app map] in RO.
  apply (IH G' y (n_arcs G + z) w2 w'); auto.
  - rewrite (proj2 (DO y ltac:(apply (wf_out G W y u); rewrite O; right; left; reflexivity))). exact D2.
  - rewrite DN. exact DZ.
Qed.
End Forever.

(** ** The words of a text *)
Lemma unstarred_chars e tok v (P : list N -> Prop) : Forall (is_char e) tok -> Forall high_multibyte tok -> Forall P tok -> unstarred (concat tok) v ->
  exists tok', concat tok' = v /\ Forall (is_char e) tok' /\ Forall P tok'.
Proof.
  intros HC HM HP [(b & r & E & ->)|(-> & _)]; [|exists tok; auto].
  assert (NE : tok <> []) by (intros ->; discriminate). destruct (exists_last NE) as (tok' & c & ->). rewrite concat_app in E. cbn [concat] in E. rewrite app_nil_r in E.
  apply Forall_app in HC. destruct HC as [HC1 HC2]. apply Forall_app in HM. destruct HM as [_ HM]. apply Forall_app in HP. destruct HP as [HP _].
  assert (EC : c = [42%N]).
  { pose proof (Forall_inv HC2) as (l & q & EC & _). pose proof (Forall_inv HM) as HH. assert (NC : c <> []) by (rewrite EC; discriminate).
    destruct (exists_last NC) as (c0 & z & EZ). rewrite EZ, app_assoc, app_comm_cons in E. apply app_inj_tail in E. destruct E as [_ ->].
    destruct c0 as [|a c0]; [exact EZ|]. exfalso. rewrite EZ in HH. assert (K : 1 < length ((a :: c0) ++ [42%N])) by (rewrite app_length; cbn [length]; lia). specialize (HH K).
    apply Forall_app in HH. destruct HH as [_ HH]. pose proof (Forall_inv HH) as HB. cbn beta in HB. lia. }
  subst c. rewrite app_comm_cons in E. apply app_inj_tail in E. destruct E as [E _]. exists tok'. auto.
Qed.
Lemma text_tokens e cs r : reads e cs r -> Forall (is_char e) cs -> Forall ordinary cs -> forall w, In w r ->
  exists tok, concat tok = w_value w /\ Forall (is_char e) tok /\ Forall (fun c => ordinary c /\ ~ space_char c) tok.
Proof.
  induction 1 as [ws H|ws tok rest w0 r H PW ST HR IH|ws inner rest a r1 r2 H HG D0 Ha R1 IH1 R2 IH2]; intros HC HO w Hw.
  - destruct Hw.
  - apply Forall_app in HC. destruct HC as [_ HC]. apply Forall_app in HC. destruct HC as [HC1 HC2].
    apply Forall_app in HO. destruct HO as [_ HO]. apply Forall_app in HO. destruct HO as [HO1 HO2].
    destruct Hw as [<-|Hw]; [|apply IH; auto]. destruct (plain_stands e tok rest PW HC1 HO1) as (w' & S' & U & _). rewrite (parse_det e tok w0 w' ST S').
    apply (unstarred_chars e tok); [exact HC1|eapply Forall_impl; [|exact HO1]; intros c Hc; apply Hc| |exact U].
    destruct PW as (_ & _ & NS & _). clear - HO1 NS. induction HO1 as [|c l H1 H2 IH]; constructor; [split; [exact H1|exact (Forall_inv NS)]|apply IH, (Forall_inv_tail NS)].
  - unfold braces in HC, HO. apply Forall_app in HC. destruct HC as [_ HC]. apply Forall_app in HC. destruct HC as [HC1 HC2].
    apply Forall_app in HO. destruct HO as [_ HO]. apply Forall_app in HO. destruct HO as [HO1 HO2].
    apply Forall_inv_tail in HC1. apply Forall_inv_tail in HO1. apply Forall_app in HC1. destruct HC1 as [HC1 _]. apply Forall_app in HO1. destruct HO1 as [HO1 _].
    apply in_app_iff in Hw. destruct Hw as [Hw|Hw]; [|apply IH2; auto]. apply IH1; [exact (alternatives_all _ _ _ HC1 Ha)|exact (alternatives_all _ _ _ HO1 Ha)|exact Hw].
Qed.
Lemma words_spellable e p dh cs r w : Forall (is_char e) cs -> Forall ordinary cs -> reads e cs r -> In w r ->
  length (w_value w) < MAXSTRING -> ~ In 123%N (w_value w) -> (dh = true -> exists b, In b (w_value w) /\ b <> 45%N) -> spellable e p dh w.
Proof.
  intros HC HO HR Hw LV NB HH. destruct (text_tokens e cs r HR HC HO w Hw) as (tok & EV & TC & TO).
  pose proof (reads_fresh e cs r HR) as FR. rewrite Forall_forall in FR. destruct (FR w Hw) as (OD & _).
  destruct (Nat.leb (length (w_value w)) 1) eqn:EL; [left; apply Nat.leb_le, EL|]. apply Nat.leb_gt in EL. right.
  assert (ET : text_of w = w_value w) by (unfold text_of; rewrite OD; reflexivity).
  destruct (C86_units p tok) as (us & U & EU & _). exists tok, us. rewrite ET. split; [split; [symmetry; exact EV|exact TC]|]. split; [|split; [exact U|split; [|split; [exact LV|congruence]]]].
  - rewrite <- EV in NB. clear - TO NB. induction TO as [|c l (H1 & H2) TO IH]; constructor.
    + split; [exact H1|]. split; [exact H2|]. intros ->. apply NB. left. reflexivity.
    + apply IH. intros K. apply NB. cbn [concat]. apply in_app_iff. right. exact K.
  - intros K. destruct dh.
    + destruct (HH eq_refl) as (b & IB & N45). rewrite <- EV, <- EU in IB. apply in_concat in IB. destruct IB as (u & IU & IB).
      assert (Q : In u (kept true us) \/ is_hyphen u = true). { destruct (is_hyphen u) eqn:Q; [auto|]. left. apply filter_In. split; [exact IU|]. rewrite Q. reflexivity. }
      destruct Q as [Q|Q]; [rewrite K in Q; destruct Q|]. unfold is_hyphen in Q. destruct u as [|c [|? ?]]; try discriminate. apply N.eqb_eq in Q. destruct IB as [<-|[]]. contradiction.
    + assert (us = []). { destruct us; [reflexivity|discriminate]. } subst us. rewrite <- EV, <- EU in EL. cbn in EL. lia.
Qed.
Lemma proper_words e cs r : reads e cs r -> Forall (is_char e) cs -> Forall ordinary cs -> forall n, proper e n cs -> forall w, In w r -> length (w_value w) < MAXSTRING /\ ~ In 123%N (w_value w).
Proof.
  induction 1 as [ws H|ws tok rest w0 r H PW ST HR IH|ws inner rest a r1 r2 H HG D0 Ha R1 IH1 R2 IH2]; intros HC HO n HP w Hw.
  - destruct Hw.
  - assert (HC' := HC). assert (HO' := HO). apply Forall_app in HC' as [_ HC']. apply Forall_app in HC' as [HC1 HC2]. apply Forall_app in HO' as [_ HO']. apply Forall_app in HO' as [HO1 HO2].
    inversion HP as [n' ws' W' E1 E2|n' ws' tok' rest' w' W' P' S' L' B' PR' E1 E2|n' ws' inner' rest' W' G' D' L' A' PA' PR' E1 E2].
    + exfalso. exact (no_token e _ ws tok rest HC eq_refl H (or_intror PW) W').
    + destruct (token_unique e _ ws tok rest ws' tok' rest' HC eq_refl H (or_intror PW) (eq_sym E2) W' (or_intror P')) as [<- <-].
      destruct Hw as [<-|Hw]; [|exact (IH HC2 HO2 _ PR' w Hw)]. rewrite (parse_det e tok w0 w' ST S'). split; [|exact B'].
      destruct (plain_stands e tok rest PW HC1 HO1) as (w2 & S2 & U & _). rewrite (parse_det e tok w' w2 S' S2). destruct U as [(b & q & E & ->)|(-> & _)]; [|exact L'].
      rewrite E in L'. cbn [length] in *. rewrite app_length in L'. lia.
    + destruct (token_unique e _ ws tok rest ws' (braces inner') rest' HC eq_refl H (or_intror PW) (eq_sym E2) W' (or_introl G')) as [-> _]. destruct PW as (_ & K & _). exfalso. exact (K _ eq_refl).
  - assert (HC' := HC). assert (HO' := HO). apply Forall_app in HC' as [_ HC']. apply Forall_app in HC' as [HC1 HC2]. apply Forall_app in HO' as [_ HO']. apply Forall_app in HO' as [HO1 HO2].
    inversion HP as [n' ws' W' E1 E2|n' ws' tok' rest' w' W' P' S' L' B' PR' E1 E2|n' ws' inner' rest' W' G' D' L' A' PA' PR' E1 E2].
    + exfalso. exact (no_token e _ ws (braces inner) rest HC eq_refl H (or_introl HG) W').
    + destruct (token_unique e _ ws (braces inner) rest ws' tok' rest' HC eq_refl H (or_introl HG) (eq_sym E2) W' (or_intror P')) as [<- _]. destruct P' as (_ & K & _). exfalso. exact (K _ eq_refl).
    + destruct (token_unique e _ ws (braces inner) rest ws' (braces inner') rest' HC eq_refl H (or_introl HG) (eq_sym E2) W' (or_introl G')) as [EB <-].
      unfold braces in EB. injection EB as EB. apply app_inj_tail in EB. destruct EB as [<- _].
      unfold braces in HC1, HO1. apply Forall_inv_tail in HC1. apply Forall_inv_tail in HO1. apply Forall_app in HC1 as [HC1 _]. apply Forall_app in HO1 as [HO1 _].
      apply in_app_iff in Hw. destruct Hw as [Hw|Hw]; [exact (IH1 (alternatives_all _ _ _ HC1 Ha) (alternatives_all _ _ _ HO1 Ha) _ (PA' a Ha) w Hw)|exact (IH2 HC2 HO2 _ PR' w Hw)].
Qed.
