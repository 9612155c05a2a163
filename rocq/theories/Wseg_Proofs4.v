(** The alignment that looks for a segmentation. *)
From Coq Require Import List NArith ZArith Arith Bool Lia.
From Verif Require Import Base Net_Model Net_Spec Merge_Spec NetDp_Model Text_Model Text_Spec Text_Proofs1 Text_Thm Word_Model Word_Spec Case_Model
  Case_Spec Case_Proofs Anet_Model Anet_Spec Anet_Proofs5 Anet_Proofs6 Anet_Proofs7 Anet_Thm Sep_Model Sep_Spec Cnet_Model Cnet_Spec Cnet_Proofs1 Cnet_Proofs2 Cnet_Proofs5
  Wseg_Model Wseg_Spec Wseg_Proofs1 Wseg_Proofs2 Wseg_Proofs3.
Import ListNotations.
Local Open Scope res_scope.

Lemma some_inj : forall (a b : list word), map Some a = map Some b -> a = b.
Proof. induction a as [|x a IH]; intros [|y b] H; try discriminate; [reflexivity|]. cbn in H. injection H as -> H. f_equal. auto. Qed.

(** A network that says the readings [R]. *)
Definition tells (G : net word) (R : list word -> Prop) : Prop := wf_net G /\ forall a, nsays G a <-> exists r, R r /\ a = map Some r.

Lemma fine_joinable e w : fine e w -> joinable e w.
Proof.
  intros ((OD & _) & WF & s & [(_ & <-)|(K & _)] & NE & WS); [|congruence]. unfold joinable, text_of. rewrite OD. split; [exact WF|]. split; [exact NE|]. split; [exact WF|]. discriminate.
Qed.
Lemma joinable_fine e w : joinable e w -> w_opt_del w = false -> w_frag w = false -> fine e w.
Proof.
  intros (WF & NE & WT & _) OD FR. unfold text_of in *. rewrite OD in *. split; [split; assumption|]. split; [exact WF|]. exists (w_value w). split; [left; auto|]. split; assumption.
Qed.
Lemma segmented_fine e lex r b : Forall (fine e) r -> segmented lex r b -> Forall (fine e) b.
Proof.
  intros F H. induction H as [|w r a H IH|g r a L O H IH]; [constructor|constructor; [exact (Forall_inv F)|apply IH, (Forall_inv_tail F)]|].
  apply Forall_app in F. destruct F as (FG & FR). constructor; [|apply IH, FR].
  destruct g as [|w g]; [cbn in L; lia|]. assert (FJ : Forall (joinable e) (w :: g)) by (eapply Forall_impl; [|exact FG]; intros v; apply fine_joinable).
  destruct (lfold_made e g (Forall_inv_tail FJ) [w] w ltac:(discriminate) (made_one e w (Forall_inv FJ))) as (d & _ & M). cbn [app] in M. pose proof (m_more _ _ _ M L) as ED. subst d.
  destruct (Forall_inv FG) as ((OD & FR') & _). apply joinable_fine; [apply M| |]; unfold joined; cbn [w_opt_del w_frag forallb]; [rewrite OD|rewrite FR']; reflexivity.
Qed.

(** ** One text *)
Section Side.
Variables (e : enc) (od : bool) (fuel : nat).
Lemma prepare_ok G (R : list word -> Prop) : tells G R -> (forall r w, R r -> In w r -> fine e w /\ w_opt_del (decoded od w) = false) ->
  n_nodes G + 2 * n_arcs G + 1 < fuel -> exists G1, prepare fuel od false G = Ok G1 /\ tells G1 R /\ n_nodes G1 = n_nodes G /\ n_arcs G1 = n_arcs G.
Proof.
  intros (W & S) HR FU.
  assert (AW : forall x, arc_of G x -> exists w, n_data G x = Some w /\ w_value w <> [] /\ decoded od w = w).
  { intros x (u & Hx). destruct (arc_word G R W S x u Hx) as (w & r & DX & Rr & Hw). exists w. split; [exact DX|]. destruct (HR r w Rr Hw) as (FW & OD).
    split; [|apply (decode_fresh od w (proj1 FW) OD)]. apply fine_joinable in FW as (_ & NE & _). unfold text_of in NE. destruct (proj1 (proj1 (HR r w Rr Hw))) as (O & _). rewrite O in NE. exact NE. }
  assert (FIRST : exists G1, (if od then traverse_op (word_op decode_op) fuel G tt else Ok (G, tt)) = Ok (G1, tt) /\ wf_net G1 /\ same_shape G G1 /\ forall x, arc_of G x -> n_data G1 x = n_data G x).
  { destruct od.
    - destruct (map_words decode_op decode G fuel W) as (G1 & E & W1 & SH & DD); [|exact FU|].
      + intros x Hx. destruct (AW x Hx) as (w & DW & NE & _). exists w. split; [exact DW|]. unfold decode_op. rewrite (decode_ok w NE). reflexivity.
      + exists G1. split; [exact E|]. split; [exact W1|]. split; [exact SH|]. intros x Hx. rewrite (DD x Hx). destruct (AW x Hx) as (w & DW & _ & ED). rewrite DW. cbn [option_map]. unfold decoded in ED. rewrite ED. reflexivity.
    - exists G. split; [reflexivity|]. split; [exact W|]. split; [apply shape_refl|auto]. }
  destruct FIRST as (G1 & E & W1 & SH & DD). exists G1. unfold prepare. rewrite E. cbn [rbind]. split; [reflexivity|]. pose proof SH as (SF & ST & SI & SO & SS & SP & SN & SA).
  split; [|split; [exact SN|exact SA]]. split; [exact W1|]. intros a. rewrite <- S. unfold nsays. rewrite SP, SS. destruct (n_stop G) as [t|]; [|tauto].
  assert (MD : forall xs, Forall (arc_of G) xs -> map (n_data G1) xs = map (n_data G) xs). { intros xs H. induction H as [|x xs H F IH]; [reflexivity|]. cbn [map]. rewrite (DD x H), IH. reflexivity. }
  split; intros (xs & P & EM); exists xs.
  - apply (shape_npath G G1 SH) in P. split; [exact P|]. rewrite <- (MD xs (path_arcs G xs _ _ P)). exact EM.
  - pose proof (path_arcs G xs _ _ P) as AR. apply (shape_npath G G1 SH) in P. split; [exact P|]. rewrite (MD xs AR). exact EM.
Qed.

Variables (p : profile) (na : bool) (junk : N) (share : Z -> nat -> Z) (free : nat) (lex : list (list N)) (k : nat).
Hypothesis GU : p = Guarani -> e = GB \/ e = UTF8.
Hypothesis SL : sorted_lexicon e lex.
Hypothesis LE : longest_entry e lex k.
(** The readings in characters of the readings [R], and their segmentations. *)
Definition in_chars (R : list word -> Prop) (r : list word) : Prop := exists r0 wss, R r0 /\ Forall2 (spelled e p na false share) r0 wss /\ r = concat wss.
Definition in_words (R : list word -> Prop) (r : list word) : Prop := exists r0, in_chars R r0 /\ segmented lex r0 r.

Lemma in_chars_fine (R : list word -> Prop) r : (forall r w, R r -> In w r -> fine e w /\ spellable e p false w) -> in_chars R r -> Forall (fine e) r.
Proof.
  intros HR (r0 & wss & Rr & FA & ->). assert (F : forall w, In w r0 -> fine e w /\ spellable e p false w) by (intros w Hw; eauto). clear Rr.
  induction FA as [|w ws r0 wss H FA IH]; [constructor|]. cbn [concat]. apply Forall_app. split; [|apply IH; intros; apply F; right; assumption].
  destruct (F w (or_introl eq_refl)) as (Q1 & Q2). exact (spelled_fine e p na false share GU w ws Q1 Q2 H).
Qed.
Lemma segment_ok G (R : list word -> Prop) buf : tells G R -> (forall r w, R r -> In w r -> fine e w /\ spellable e p false w) ->
  (forall r w, in_chars R r -> In w r -> w_value w <> [64%N]) ->
  10 <= length buf -> n_nodes G + 2 * n_arcs G + 1 < fuel -> MAXSTRING + 1 < fuel ->
  exists G' buf', segment e p na junk share (S (S free)) fuel lex k G buf = Ok (G', buf') /\ tells G' (in_words R).
Proof.
  intros (W & S) HR NN RB FU FM.
  destruct (chars_network e p na false false junk share free fuel GU G buf W) as (C & buf' & EC & WC & _ & _ & YC); [|exact RB|exact FU|exact FM|].
  { intros u x Hx. destruct (arc_word G R W S x u Hx) as (w & r & DX & Rr & Hw). destruct (HR r w Rr Hw) as (FW & SPL). exists w. split; [exact DX|]. pose proof FW as ((OD & _) & _). apply fine_joinable in FW as (_ & NE & _).
    unfold text_of in NE. rewrite OD in NE. split; [exact NE|]. unfold decoded. split; [exact SPL|congruence]. }
  unfold by_chars in EC. cbn [rbind] in EC. unfold segment. rewrite Nat.sub_succ, Nat.sub_0_r, EC. cbn [rbind].
  assert (TC : tells C (in_chars R)).
  { split; [exact WC|]. intros a. rewrite YC. split.
    - intros (r & wss & HS & FA & ->). apply S in HS. destruct HS as (r0 & Rr & ER). apply some_inj in ER. subst r0. exists (concat wss). split; [exists r, wss; auto|reflexivity].
    - intros (r' & (r & wss & Rr & FA & ->) & ->). exists r, wss. split; [apply S; eauto|auto]. }
  destruct TC as (_ & SC). pose proof LE as (LE1 & _). destruct k as [|k0] eqn:EK; [lia|].
  destruct (network_segmented e lex k0 SL C WC) as (G' & EG & WG & _ & _ & S1 & S2).
  { intros u x Hx. destruct (arc_word C (in_chars R) WC SC x u Hx) as (w & r & DX & Rr & Hw). exists w. split; [exact DX|]. apply fine_joinable. pose proof (in_chars_fine R r HR Rr) as F. rewrite Forall_forall in F. auto. }
  exists G', buf'. rewrite EG. cbn [rbind]. split; [reflexivity|]. split; [exact WG|]. intros a. split.
  - intros H. destruct (S1 a H) as (r & b & HS & SG & ->). apply SC in HS. destruct HS as (r0 & Rr & ER). apply some_inj in ER. subst r0. exists b. split; [exists r; auto|reflexivity].
  - intros (b & (r & Rr & SG) & ->). apply (S2 r b); [apply SC; eauto|]. apply (few_pieces_grouped e); [exact LE| | |exact SG].
    + eapply Forall_impl; [|exact (in_chars_fine R r HR Rr)]. intros w. apply fine_joinable.
    + apply Forall_forall. intros w Hw. specialize (NN r w Rr Hw). unfold is_null_word. destruct (list_eq_dec N.eq_dec (w_value w) [64%N]); [contradiction|reflexivity].
Qed.
Lemma in_words_fine (R : list word -> Prop) r w : (forall r w, R r -> In w r -> fine e w /\ spellable e p false w) -> in_words R r -> In w r -> fine e w.
Proof. intros HR (r0 & C & SG) Hw. pose proof (segmented_fine e lex r0 r (in_chars_fine R r0 HR C) SG) as F. rewrite Forall_forall in F. auto. Qed.
End Side.

(** ** Lower case *)
Lemma holds_cstr m s : holds m s -> holds (cstr s) s.
Proof. intros (H & _). split; [exact H|exists []; reflexivity]. Qed.
Lemma lowered_ok e p junk (fold : bool) static m cs all : text_in e m cs -> (fold = true -> enough static cs all) -> incl cs all ->
  exists static' ds m', lowered e p junk fold static m = Ok (static', m') /\ m' = (if fold then cstr (concat ds) else m) /\ text_in e m' ds /\ (if fold then Forall2 (case_of e p true) cs ds else ds = cs)
    /\ (fold = true -> forall cs2, enough static' cs2 all).
Proof.
  intros TI EN IN. unfold lowered. destruct fold.
  - destruct (to_master_ok e p junk true static m cs all TI (EN eq_refl) IN) as (out & ds & E & CO & TO & RM & _). rewrite E. cbn [rbind]. pose proof TO as (HO & VO). rewrite (strlen_holds out _ HO). cbn [rbind].
    destruct HO as (N0 & j & EO). replace (firstn (length (concat ds)) out) with (concat ds) by (rewrite EO, firstn_app, Nat.sub_diag, firstn_O, app_nil_r, firstn_all; reflexivity).
    eexists. exists ds. eexists. split; [reflexivity|]. split; [reflexivity|]. split; [split; [split; [exact N0|exists []; reflexivity]|exact VO]|]. split; [exact CO|]. intros _ cs2. destruct RM as [H|H]; [left; exact H|right; exact H].
  - exists static, cs, m. repeat split; try apply TI. discriminate.
Qed.
