(** Proofs about the reading of RTTM files word by word: one line. *)
From Coq Require Import String List NArith ZArith Arith Bool Ascii Lia Sorted.
From Verif Require Import Base Store_Model Store_Proofs Segm_Model Graph_Model Links_Model Links_Spec Links_Proofs Token_Model Alt_Model Alt_Spec Alt_Proofs Alt_Proofs2 AsTrn_Model AsTrn_Spec AsTrn_Proofs AsStm_Model AsStm_Spec AsStm_Proofs1 AsStm_Proofs2 Rttm_Model Rttm_Spec Rttm_Proofs1 Rttm_Proofs2 Rttm_Proofs3 Rttm_Proofs4 Rttm_Proofs5 Rttm_Proofs6 Rlex_Spec Rlex_Proofs Rlex_Proofs2.
Import ListNotations.
Local Open Scope res_scope.
Local Notation length := List.length.

(** ** The readings of a word *)
Lemma one_language ms fuel g a : understandable ms fuel g -> as_line (map ascii_of_N (g_word g)) = print_alts a -> ok_line a ->
  forall p, lexeme_reads g p <-> exists x, says_alts a x /\ x <> [] /\ p = map (in_parens (among (map AsStm_Model.lower (g_type g)) OPTIONAL)) x.
Proof.
  intros (_ & _ & a0 & E0 & _ & LF) EA OA p. pose proof (optional_iff (g_type g)) as OI. split.
  - intros (a' & x & opt & EA' & OA' & SA & NE & OP & ->). exists x.
    assert (OQ : opt = among (map AsStm_Model.lower (g_type g)) OPTIONAL) by (apply eq_true_iff_eq; rewrite OP, OI; reflexivity). rewrite <- OQ. split; [|auto].
    assert (W0 : wf empty_state) by (split; [intros i j; reflexivity|intros i j []]). assert (P1 : print_alts a = print_alts a0) by congruence. assert (P2 : print_alts a' = print_alts a0) by congruence.
    destruct (parse_beside None false fuel a empty_state OA) as (st1 & v1 & new1 & E1 & _ & _ & _ & _ & _ & _ & _ & _ & S1 & _); [rewrite P1; exact LF|exact W0|].
    destruct (parse_beside None false fuel a' empty_state OA') as (st2 & v2 & new2 & E2 & _ & _ & _ & _ & _ & _ & _ & _ & S2 & _); [rewrite P2; exact LF|exact W0|].
    assert (K : Ok (st1, v1) = Ok (st2, v2)) by (rewrite <- E1, <- E2, P1, P2; reflexivity). injection K as <- <-. apply S1, S2. auto.
  - intros (x & SA & NE & ->). exists a, x, (among (map AsStm_Model.lower (g_type g)) OPTIONAL). repeat (split; [assumption|]). reflexivity.
Qed.

(** ** The words of a speaker *)
Lemma of_speaker_snoc s g : forall gs i, of_speaker s i (gs ++ [g]) = of_speaker s i gs ++ (if same (g_spkr g) s then [(i + length gs, g)] else []).
Proof.
  unfold same. induction gs as [|x gs IH]; intros i; cbn [app of_speaker length].
  - rewrite Nat.add_0_r. destruct (list_eq_dec N.eq_dec (g_spkr g) s); reflexivity.
  - rewrite IH, Nat.add_succ_r. destruct (list_eq_dec N.eq_dec (g_spkr x) s); reflexivity.
Qed.
Lemma of_speaker_pos s gs : map fst (of_speaker s 0 gs) = pos s (map g_spkr gs).
Proof.
  induction gs as [|g gs IH] using rev_ind; [reflexivity|]. rewrite of_speaker_snoc, !map_app. cbn [map]. rewrite pos_snoc, IH, map_length. cbn [Nat.add]. destruct (same (g_spkr g) s); reflexivity.
Qed.
Lemma of_speaker_nth s : forall gs i z, In z (of_speaker s i gs) -> i <= fst z /\ nth_error gs (fst z - i) = Some (snd z).
Proof.
  induction gs as [|g gs IH]; intros i z H; [destruct H|]. cbn [of_speaker] in H.
  assert (K : In z (of_speaker s (S i) gs) -> i <= fst z /\ nth_error (g :: gs) (fst z - i) = Some (snd z)).
  { intros K. destruct (IH (S i) z K) as (L & E). split; [lia|]. replace (fst z - i) with (S (fst z - S i)) by lia. exact E. }
  destruct (list_eq_dec N.eq_dec (g_spkr g) s); [|exact (K H)]. destruct H as [<-|H]; [|exact (K H)]. cbn [fst snd]. rewrite Nat.sub_diag. auto.
Qed.

Section Numbers.
Variable ms : str -> Z.
(** What a word gives its segment, apart from the tokens *)
Definition lexfields (gs : list lexeme) (k i : nat) (g : lexeme) (y : rseg) : Prop :=
  r_src y = g_src g /\ r_chan y = g_chan g /\ r_spkr y = g_spkr g /\ r_line y = g_line g /\ r_elem y = i
  /\ sg_begin (r_seg y) = ms (g_b g) /\ sg_end (r_seg y) = (ms (g_b g) + ms (g_d g))%Z
  /\ (exists d, decimal3 (N.of_nat k mod 2 ^ 64) d /\ r_id y = [40%N] ++ g_spkr g ++ [45%N] ++ d ++ [41%N])
  /\ ((Exists without_confidence (firstn (S i) gs) /\ r_conf y = None) \/ (~ Exists without_confidence (firstn (S i) gs) /\ r_conf y = Some (g_conf g))).
Lemma lexfields_more gs more k i g y : i < length gs -> lexfields gs k i g y -> lexfields (gs ++ more) k i g y.
Proof. intros L. unfold lexfields. rewrite firstn_app. replace (S i - length gs) with 0 by lia. rewrite firstn_O, app_nil_r. auto. Qed.

Definition has_conf (g : lexeme) : bool := negb (str_eqb (g_conf g) NA).
Lemma use_iff gs : forallb has_conf gs = false <-> Exists without_confidence gs.
Proof.
  unfold has_conf, without_confidence. induction gs as [|g gs IH]; cbn [forallb]; [split; [discriminate|intros K; inversion K]|]. rewrite Exists_cons, <- IH. change (bytes "<NA>") with NA. destruct (str_eqb_dec (g_conf g) NA) as [(E & ->)|(E & ->)]; cbn [negb andb].
  - split; auto.
  - split; [auto|intros [K|K]; [contradiction|exact K]].
Qed.
Record xinv (gs : list lexeme) (n : nat) (t : xstate) (bs : list blk) : Prop := {
  v_n : x_line t = n;
  v_elem : x_elem t = length gs;
  v_gs : map k_g bs = gs;
  v_use : x_use t = forallb has_conf gs;
  v_wf : wf (x_ps t);
  v_quiet : Forall quiet (ps_toks (x_ps t));
  v_blocks : blocks (x_ps t) bs;
  v_inner : forall i b, nth_error bs i = Some b -> forall w, inner (x_ps t) b w <-> lexeme_reads (k_g b) w;
  v_keys : StronglySorted before (map fst (x_map t));
  v_names : forall s, In s (map fst (x_map t)) <-> pos s (owners bs) <> [];
  v_len : forall s, length (at_key s (x_map t)) = length (pos s (owners bs));
  v_nth : forall s k i, nth_error (pos s (owners bs)) k = Some i -> exists b, nth_error bs i = Some b /\ nth_error (at_key s (x_map t)) k = Some (k_x b) /\ lexfields gs k i (k_g b) (k_x b) }.
Lemma x_begin : xinv [] 0 first_x [].
Proof.
  constructor; try reflexivity.
  - split; [intros i j; reflexivity|intros i j []].
  - constructor.
  - constructor; [intros i b E; destruct i; discriminate|intros i j b b' _ E; destruct i; discriminate|intros x y []|]. intros x y (s & i & j & b & b' & _ & E & _). destruct i; discriminate.
  - intros i b E. destruct i; discriminate.
  - constructor.
  - intros s. cbn. split; [intros []|intros K; destruct K; reflexivity].
  - intros s k i E. destruct k; discriminate.
Qed.

Lemma owners_gs gs n t bs : xinv gs n t bs -> owners bs = map g_spkr gs /\ length bs = length gs.
Proof. intros IV. rewrite <- (v_gs _ _ _ _ IV). unfold owners. rewrite map_map, map_length. auto. Qed.

(** The segment before *)
Lemma rev_head {A} (l : list A) : match rev l with [] => l = [] | p :: _ => nth_error l (length l - 1) = Some p end.
Proof.
  destruct l as [|x l] using rev_ind; [reflexivity|]. rewrite rev_app_distr. cbn [rev app]. rewrite app_length. cbn [length]. rewrite nth_error_app2 by lia. replace (length l + 1 - 1 - length l) with 0 by lia. reflexivity.
Qed.
Lemma last_error_nth c : match last_error c with None => c = [] | Some i => nth_error c (length c - 1) = Some i end.
Proof. unfold last_error. pose proof (rev_head c) as K. destruct (rev c); exact K. Qed.
Lemma nth_snoc {A} (l : list A) x i y : nth_error (l ++ [x]) i = Some y <-> nth_error l i = Some y \/ (i = length l /\ x = y).
Proof.
  destruct (Nat.lt_trichotomy i (length l)) as [L|[L|L]].
  - rewrite nth_error_app1 by exact L. split; [auto|intros [K|(K & _)]; [exact K|lia]].
  - subst i. rewrite nth_error_app2, Nat.sub_diag by lia. cbn. split; [intros K; injection K as ->; auto|]. intros [K|(_ & ->)]; [|reflexivity]. rewrite (proj2 (nth_error_None l (length l)) (le_n _)) in K. discriminate.
  - rewrite (proj2 (nth_error_None (l ++ [x]) i)) by (rewrite app_length; cbn; lia). rewrite (proj2 (nth_error_None l i)) by lia. split; [discriminate|intros [K|(K & _)]; [discriminate|lia]].
Qed.
Lemma in_parens_named opt w : w <> EmptyString -> in_parens opt w <> EmptyString.
Proof. unfold in_parens. destruct opt; [discriminate|auto]. Qed.

Lemma word_x gs n t bs g ps1 v new a fuel :
  xinv gs n t bs -> understandable ms fuel g -> g_line g = n ->
  let opt := among (map AsStm_Model.lower (g_type g)) OPTIONAL in
  let N := length (ps_toks (x_ps t)) in
  as_line (map ascii_of_N (g_word g)) = print_alts a -> ok_line a ->
  ps_toks ps1 = ps_toks (x_ps t) ++ new -> Forall (tok_ok (Some (ms (g_b g), ms (g_b g) + ms (g_d g))%Z) opt) new -> wf ps1 ->
  (forall i j, edge (ps_links ps1) i j <-> (edge (ps_links (x_ps t)) i j /\ i < N /\ j < N) \/ (edge (ps_links ps1) i j /\ N <= i /\ N <= j)) ->
  list_ok N (length (ps_toks ps1)) (vs_start v) -> list_ok N (length (ps_toks ps1)) (vs_end v) ->
  (forall w, spells ps1 (vs_start v) (vs_end v) w <-> w <> [] /\ says_alts a w) -> full N ps1 v ->
  let s := {| sg_first := vs_start v; sg_last := vs_end v; sg_begin := ms (g_b g); sg_end := (ms (g_b g) + ms (g_d g))%Z |} in
  let speech := at_key (g_spkr g) (x_map t) in
  let use := if str_eqb (g_conf g) NA then false else x_use t in
  let x := {| r_src := g_src g; r_chan := g_chan g; r_spkr := g_spkr g; r_line := x_line t; r_elem := x_elem t; r_id := id_of (g_spkr g) (length speech) 0;
              r_conf := if use then Some (g_conf g) else None; r_prev := None; r_seg := s |} in
  let h := match rev speech with p :: _ => attach (ps_links ps1) (sg_last (r_seg p)) (sg_first s) | [] => ps_links ps1 end in
  exists bs', xinv (gs ++ [g]) (S n) {| x_ps := {| ps_toks := ps_toks ps1; ps_links := h |}; x_map := add_to (g_spkr g) x (x_map t); x_use := use; x_line := S (x_line t); x_elem := S (x_elem t) |} bs'.
Proof.
  intros IV UN GN opt N EA OA TN FT WF1 ED LS LE SP FU s speech use x h.
  set (st' := {| ps_toks := ps_toks ps1; ps_links := h |}). set (b := {| k_g := g; k_x := x; k_lo := N; k_hi := length (ps_toks ps1) |}).
  pose proof (v_blocks _ _ _ _ IV) as BL. destruct (owners_gs _ _ _ _ IV) as (OW & LB).
  assert (LN : N <= length (ps_toks ps1)) by (rewrite TN, app_length; unfold N; lia).
  assert (OWN : owners (bs ++ [b]) = owners bs ++ [g_spkr g]) by (unfold owners; rewrite map_app; reflexivity).
  assert (LOW : length (owners bs) = length bs) by (unfold owners; apply map_length).
  (* the links *)
  assert (LINK : forall x1 y1, edge h x1 y1 <-> edge (ps_links ps1) x1 y1 \/ exists i b0, last_error (pos (g_spkr g) (owners bs)) = Some i /\ nth_error bs i = Some b0 /\ In x1 (k_last b0) /\ In y1 (vs_start v)).
  { intros x1 y1. unfold h. pose proof (rev_head speech) as RH. pose proof (last_error_nth (pos (g_spkr g) (owners bs))) as LX. pose proof (v_len _ _ _ _ IV (g_spkr g)) as VL. fold speech in VL.
    destruct (rev speech) as [|p r].
    - assert (PN : pos (g_spkr g) (owners bs) = []) by (apply length_zero_iff_nil; rewrite <- VL, RH; reflexivity). rewrite PN. split; [auto|]. intros [K|(i & b0 & K & _)]; [exact K|discriminate].
    - destruct (last_error (pos (g_spkr g) (owners bs))) as [i|]; [|rewrite LX in VL; destruct speech; discriminate]. destruct (v_nth _ _ _ _ IV _ _ _ LX) as (b0 & E0 & EK & _). rewrite <- VL in EK. fold speech in EK. rewrite RH in EK. injection EK as ->.
      rewrite (proj2 (attach_spec _ _ _) x1 y1). split.
      + intros [K|(A & B)]; [auto|]. right. exists i, b0. auto.
      + intros [K|(i' & b0' & Ei & E0' & A & B)]; [auto|]. right. injection Ei as <-. rewrite E0 in E0'. injection E0' as <-. auto. }
  assert (MU : mutual h). { unfold h. destruct (rev speech); [apply WF1|]. apply (proj1 (attach_spec _ _ _)), WF1. }
  assert (OLD : forall i b0, nth_error bs i = Some b0 -> forall z, inb b0 z -> z < N). { intros i b0 E0 z Hz. destruct (b_in _ _ BL i b0 E0) as (K & _). unfold inb in Hz. unfold N. lia. }
  assert (OLDL : forall i b0, nth_error bs i = Some b0 -> forall z, In z (k_last b0) -> z < N). { intros i b0 E0 z Hz. apply (OLD i b0 E0). exact (proj2 (proj2 (b_in _ _ BL i b0 E0)) z Hz). }
  assert (JOIN : forall x1 y1, joined (bs ++ [b]) x1 y1 <-> joined bs x1 y1 \/ exists i b0, last_error (pos (g_spkr g) (owners bs)) = Some i /\ nth_error bs i = Some b0 /\ In x1 (k_last b0) /\ In y1 (vs_start v)).
  { intros x1 y1. unfold joined. rewrite OWN. split.
    - intros (u & i & j & b1 & b2 & C & E1 & E2 & I1 & I2). rewrite pos_snoc in C. destruct (same (g_spkr g) u) eqn:SU.
      + assert (g_spkr g = u) by (unfold same in SU; destruct (list_eq_dec N.eq_dec (g_spkr g) u); congruence). subst u. apply consec_snoc in C. destruct C as [C|(LX & ->)].
        * left. exists (g_spkr g), i, j, b1, b2. split; [exact C|]. apply consec_in in C. destruct C as (P1 & P2). apply pos_in in P1, P2. rewrite LOW in P1, P2. rewrite nth_error_app1 in E1 by lia. rewrite nth_error_app1 in E2 by lia. auto.
        * right. exists i, b1. split; [exact LX|]. assert (PI : In i (pos (g_spkr g) (owners bs))). { pose proof (last_error_nth (pos (g_spkr g) (owners bs))) as K. rewrite LX in K. exact (nth_error_In _ _ K). }
          apply pos_in in PI. rewrite nth_error_app1 in E1 by lia. split; [exact E1|]. split; [exact I1|]. rewrite nth_error_app2, LOW, Nat.sub_diag in E2 by lia. injection E2 as <-. exact I2.
      + rewrite app_nil_r in C. left. exists u, i, j, b1, b2. split; [exact C|]. apply consec_in in C. destruct C as (P1 & P2). apply pos_in in P1, P2. rewrite nth_error_app1 in E1 by lia. rewrite nth_error_app1 in E2 by lia. auto.
    - intros [(u & i & j & b1 & b2 & C & E1 & E2 & I1 & I2)|(i & b0 & LX & E0 & I1 & I2)].
      + exists u, i, j, b1, b2. split; [|split; [apply nth_snoc; auto|split; [apply nth_snoc; auto|auto]]]. rewrite pos_snoc. destruct (same (g_spkr g) u); [apply consec_snoc; auto|rewrite app_nil_r; exact C].
      + exists (g_spkr g), i, (length bs), b0, b. split; [rewrite pos_snoc, same_refl; apply consec_snoc; right; split; [exact LX|symmetry; exact LOW]|]. split; [apply nth_snoc; auto|]. split; [apply nth_snoc; auto|auto]. }
  assert (BL' : blocks st' (bs ++ [b])).
  { constructor.
    - intros i b0 E0. apply nth_snoc in E0. cbn [st' ps_toks]. destruct E0 as [E0|(_ & <-)].
      + destruct (b_in _ _ BL i b0 E0) as (A & B). split; [unfold N in LN; lia|exact B].
      + split; [cbn [b k_lo k_hi]; lia|]. split; [intros z Hz; apply (proj2 LS), Hz|intros z Hz; apply (proj2 LE), Hz].
    - intros i j b1 b2 L E1 E2. apply nth_snoc in E1, E2. destruct E1 as [E1|(-> & <-)], E2 as [E2|(-> & <-)].
      + exact (b_order _ _ BL i j b1 b2 L E1 E2).
      + destruct (b_in _ _ BL i b1 E1) as (A & _). cbn [b k_lo]. unfold N. lia.
      + assert (j < length bs) by (apply nth_error_Some; rewrite E2; discriminate). lia.
      + lia.
    - intros x1 y1 E. cbn [st' ps_links] in E. apply LINK in E. destruct E as [E|E]; [|right; apply JOIN; right; exact E]. apply ED in E. destruct E as [(E & _)|(E & A & B)].
      + destruct (b_edges _ _ BL x1 y1 E) as [(i & b0 & E0 & I1 & I2)|J]; [left; exists i, b0; split; [apply nth_snoc; auto|auto]|right; apply JOIN; auto].
      + left. exists (length bs), b. split; [apply nth_snoc; auto|]. destruct (proj2 WF1 x1 y1 E). split; split; cbn [b k_lo k_hi]; assumption.
    - intros x1 y1 J. cbn [st' ps_links]. apply LINK. apply JOIN in J. destruct J as [J|J]; [left|right; exact J]. apply ED. left. split; [exact (b_joined _ _ BL x1 y1 J)|]. exact (proj2 (v_wf _ _ _ _ IV) x1 y1 (b_joined _ _ BL x1 y1 J)). }
  assert (SRC : forall i b0, nth_error bs i = Some b0 -> forall z, inb b0 z -> srct st' z = srct (x_ps t) z).
  { intros i b0 E0 z Hz. unfold srct. cbn [st' ps_toks]. rewrite TN, app_nth1; [reflexivity|exact (OLD i b0 E0 z Hz)]. }
  assert (INO : forall i b0, nth_error bs i = Some b0 -> forall w, inner st' b0 w <-> inner (x_ps t) b0 w).
  { intros i b0 E0 w. split; apply inner_same.
    - intros x1 y1 I1 I2 E. cbn [st' ps_links] in E. apply LINK in E. destruct E as [E|(i' & b' & _ & _ & _ & IY)]; [|pose proof (OLD i b0 E0 y1 I2); apply (proj2 LS) in IY; lia]. apply ED in E. destruct E as [(E & _)|(_ & A & _)]; [exact E|]. pose proof (OLD i b0 E0 x1 I1). lia.
    - intros z Hz. symmetry. exact (SRC i b0 E0 z Hz).
    - intros x1 y1 I1 I2 E. cbn [st' ps_links]. apply LINK. left. apply ED. left. split; [exact E|]. exact (proj2 (v_wf _ _ _ _ IV) x1 y1 E).
    - exact (SRC i b0 E0). }
  assert (TXT : forall z, N <= z < length (ps_toks ps1) -> srct st' z = in_parens opt (text_of ps1 z)).
  { intros z Hz. unfold srct, text_of. cbn [st' ps_toks]. change {| at_text := ""; at_start := 0; at_dur := 0; at_opt := false |} with no_tok. rewrite source_parens. f_equal. rewrite TN, app_nth2 by (unfold N in Hz; lia). rewrite Forall_forall in FT. apply FT. apply nth_In. rewrite TN, app_length in Hz. unfold N in Hz. lia. }
  assert (NEWW : forall l z, N <= z < length (ps_toks ps1) -> walk (ps_links ps1) z l -> Forall (inb b) (z :: l)).
  { induction l as [|y l IHl]; intros z Hz W; (constructor; [exact Hz|]); [constructor|]. destruct W as (E & W). apply (IHl y); [|exact W]. pose proof (proj2 WF1 z y E). apply ED in E. destruct E as [(_ & K & _)|(_ & _ & K)]; lia. }
  assert (NEWE : forall x1 y1, inb b x1 -> edge h x1 y1 <-> edge (ps_links ps1) x1 y1).
  { intros x1 y1 I1. rewrite LINK. split; [|auto]. intros [E|(i & b0 & _ & E0 & IX & _)]; [exact E|]. pose proof (OLDL i b0 E0 x1 IX). unfold inb in I1. cbn [b k_lo k_hi] in I1. lia. }
  assert (INN : forall p, inner st' b p <-> lexeme_reads g p).
  { intros p. rewrite (one_language ms fuel g a UN EA OA p). fold opt. split.
    - intros (z & l & FZ & W & F & LZ & T). assert (W1 : walk (ps_links ps1) z l). { clear - W F NEWE. revert z W F. induction l as [|y l IHl]; intros z W F; [exact I|]. destruct W as (E & W). inversion F as [|? ? I1 F2]; subst. split; [apply NEWE; [exact I1|exact E]|exact (IHl y W F2)]. }
      assert (SS : spells ps1 (vs_start v) (vs_end v) (map (text_of ps1) (z :: l))) by (exists z, l; auto). apply SP in SS. destruct SS as (NE & SA). exists (map (text_of ps1) (z :: l)). split; [exact SA|]. split; [exact NE|]. rewrite <- T, map_map. apply map_ext_in. intros u Hu. apply TXT. rewrite Forall_forall in F. exact (F u Hu).
    - intros (w & SA & NE & ->). destruct (proj2 (SP w) (conj NE SA)) as (z & l & FZ & W & LZ & T). pose proof (NEWW l z (proj2 LS z FZ) W) as F. exists z, l. split; [exact FZ|]. split; [|split; [exact F|split; [exact LZ|]]].
      + clear - W F NEWE. revert z W F. induction l as [|y l IHl]; intros z W F; [exact I|]. destruct W as (E & W). inversion F as [|? ? I1 F2]; subst. split; [apply NEWE; [exact I1|exact E]|exact (IHl y W F2)].
      + rewrite <- T, map_map. apply map_ext_in. intros u Hu. apply TXT. rewrite Forall_forall in F. exact (F u Hu). }
  assert (QN : Forall quiet new).
  { apply Forall_forall. intros tk IT. destruct (In_nth _ _ no_tok IT) as (m & LM & EM).
    assert (LZ : N <= N + m < length (ps_toks ps1)) by (rewrite TN, app_length; unfold N; lia).
    assert (ET : nth (N + m) (ps_toks ps1) no_tok = tk) by (rewrite TN, app_nth2 by (unfold N; lia); replace (N + m - length (ps_toks (x_ps t))) with m by (unfold N; lia); exact EM).
    destruct (FU (N + m) LZ) as ((f & l & FF & W & EL) & (l2 & W2 & E2)).
    assert (SS : spells ps1 (vs_start v) (vs_end v) (map (text_of ps1) (f :: l ++ l2))).
    { exists f, (l ++ l2). split; [exact FF|]. destruct l2 as [|y l2].
      - rewrite app_nil_r. split; [exact W|]. rewrite EL. auto.
      - split; [apply walk_app; split; [exact W|]; rewrite EL; exact W2|]. rewrite last_in_tail. rewrite last_cons in E2. auto. }
    apply SP in SS. destruct SS as (_ & SA). assert (IN : In (text_of ps1 (N + m)) (map (text_of ps1) (f :: l ++ l2))).
    { apply in_map. rewrite <- EL. destruct l as [|y l] using rev_ind; [left; reflexivity|]. rewrite last_last. right. rewrite !in_app_iff. cbn. auto. }
    destruct (said_unmarked _ a _ _ EA OA SA IN) as (NE & UM). unfold text_of in NE, UM. change {| at_text := ""; at_start := 0; at_dur := 0; at_opt := false |} with no_tok in NE, UM. rewrite ET in NE, UM.
    pose proof (source_parens tk) as EP. split.
    - intros K. apply (in_parens_named (at_opt tk) _ NE). rewrite <- EP, K. reflexivity.
    - rewrite <- (list_ascii_of_string_of_list_ascii (source tk)), EP. apply unmarked_parens, UM. }
  assert (CONF : (Exists without_confidence (firstn (S (length gs)) (gs ++ [g])) /\ r_conf x = None) \/ (~ Exists without_confidence (firstn (S (length gs)) (gs ++ [g])) /\ r_conf x = Some (g_conf g))).
  { rewrite firstn_all2 by (rewrite app_length; cbn; lia). rewrite <- use_iff, forallb_app. cbn [forallb]. rewrite andb_true_r. unfold has_conf at 2 4. cbn [x r_conf]. unfold use. rewrite (v_use _ _ _ _ IV). destruct (str_eqb (g_conf g) NA); cbn [negb].
    - left. rewrite andb_false_r. auto.
    - rewrite andb_true_r. destruct (forallb has_conf gs); [right; split; [discriminate|reflexivity]|left; auto]. }
  destruct (add_ok (g_spkr g) x (x_map t) (v_keys _ _ _ _ IV)) as (AK & AT).
  exists (bs ++ [b]). constructor; cbn [x_line x_elem x_use x_ps x_map].
  - rewrite (v_n _ _ _ _ IV). reflexivity.
  - rewrite (v_elem _ _ _ _ IV), app_length. cbn [length]. lia.
  - rewrite map_app, (v_gs _ _ _ _ IV). reflexivity.
  - rewrite forallb_app. cbn [forallb]. rewrite andb_true_r, <- (v_use _ _ _ _ IV). unfold use, has_conf. destruct (str_eqb (g_conf g) NA); cbn [negb]; [rewrite andb_false_r|rewrite andb_true_r]; reflexivity.
  - split; [exact MU|]. cbn [st' ps_links ps_toks]. intros x1 y1 E. apply LINK in E. destruct E as [E|(i & b0 & _ & E0 & IX & IY)]; [exact (proj2 WF1 x1 y1 E)|]. pose proof (OLDL i b0 E0 x1 IX). apply (proj2 LS) in IY. lia.
  - cbn [st' ps_toks]. rewrite TN. apply Forall_app. split; [apply IV|exact QN].
  - exact BL'.
  - intros i b0 E0 w. apply nth_snoc in E0. destruct E0 as [E0|(_ & <-)]; [|apply INN]. fold st'. rewrite (INO i b0 E0). apply (v_inner _ _ _ _ IV i b0 E0).
  - exact AK.
  - intros u. rewrite add_keys, (v_names _ _ _ _ IV u), OWN, pos_snoc. unfold same. destruct (list_eq_dec N.eq_dec (g_spkr g) u) as [->|NE].
    + split; [intros _ K; apply app_eq_nil in K; destruct K; discriminate|auto].
    + rewrite app_nil_r. split; [intros [K|K]; [congruence|exact K]|auto].
  - intros u. rewrite AT, OWN, pos_snoc, !app_length, (v_len _ _ _ _ IV u), <- same_str. destruct (same (g_spkr g) u); reflexivity.
  - intros u k i E. rewrite OWN, pos_snoc in E. rewrite AT, <- same_str.
    assert (KEEP : nth_error (pos u (owners bs)) k = Some i -> exists b0, nth_error (bs ++ [b]) i = Some b0 /\ nth_error (at_key u (x_map t) ++ (if same (g_spkr g) u then [x] else [])) k = Some (k_x b0) /\ lexfields (gs ++ [g]) k i (k_g b0) (k_x b0)).
    { intros E1. destruct (v_nth _ _ _ _ IV u k i E1) as (b0 & E0 & EK & FX). exists b0. split; [apply nth_snoc; auto|]. split; [|apply lexfields_more; [rewrite <- LB; apply nth_error_Some; rewrite E0; discriminate|exact FX]]. rewrite nth_error_app1; [exact EK|]. apply nth_error_Some. rewrite EK. discriminate. }
    destruct (same (g_spkr g) u) eqn:SU; [|rewrite app_nil_r in E; exact (KEEP E)]. assert (g_spkr g = u) by (unfold same in SU; destruct (list_eq_dec N.eq_dec (g_spkr g) u); congruence). subst u.
    apply nth_snoc in E. destruct E as [E|(-> & <-)]; [exact (KEEP E)|]. exists b. rewrite LOW. split; [apply nth_snoc; auto|]. split; [apply nth_snoc; right; split; [symmetry; apply (v_len _ _ _ _ IV)|reflexivity]|].
    unfold lexfields. cbn [b k_g k_x x r_src r_chan r_spkr r_line r_elem r_seg s sg_begin sg_end r_id]. rewrite (v_n _ _ _ _ IV), (v_elem _ _ _ _ IV), LB. repeat (split; [reflexivity || (symmetry; assumption)|]). split; [apply (id_ok (g_spkr g) _ 0); unfold speech; apply (v_len _ _ _ _ IV)|exact CONF].
Qed.
End Numbers.
