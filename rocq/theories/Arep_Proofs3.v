(** Paths, speakers, labels and the whole report, written by asclite and read by sclite. *)
From Coq Require Import String Ascii.
From Coq Require Import List ZArith NArith Arith Bool Lia Permutation.
From Verif Require Import Base Text_Model Text_Spec Text_Proofs1 Sgml_Model Sgml_Spec Sgml_Proofs1 Sgml_Proofs2 Sgml_Proofs3 Sgml_Proofs4 Sgml_Proofs5 Sgml_Proofs6.
From Verif Require Import Arep_Model Arep_Spec Arep_Proofs1 Arep_Proofs2.
From Verif Require Read_Model Read_Proofs3 Word_Model Scores_Model.
Import ListNotations.
Local Open Scope res_scope.
Local Open Scope list_scope.

(** ** The line of cells *)
Definition ct (o : opts) (x : auxs) (c : cell) : str := match c_eval c with Some (r, h) => ctext o x r (c_ref c) h | None => [] end.
Lemma good_eval e o x c : good e o x c -> exists r h, c_eval c = Some (r, h) /\ r <> RU /\ ev_of r <> EU.
Proof.
  intros ((_ & H) & _). destruct (c_eval c) as [[r h]|]; [|contradiction]. exists r, h. split; [reflexivity|]. destruct H as [_ H]. destruct r; try contradiction; split; discriminate.
Qed.
Lemma cell_ct e o x c : good e o x c -> cell_text o x c = Ok (ct o x c).
Proof. intros H. destruct (good_eval e o x c H) as (r & h & E & N & _). unfold ct. rewrite E. apply cell_text_eq; assumption. Qed.
Lemma qt_safe set s : Forall (fun b => (0 < b < 128)%N /\ b <> 34%N /\ in_set set b = false) s -> qtext set s.
Proof. intros H. induction H as [|b s (H1 & H2 & H3) H IH]; constructor; assumption. Qed.
Lemma in_sep b : b <> 58%N -> b <> 10%N -> in_set sep b = false.
Proof. intros H1 H2. cbn. destruct (N.eqb_spec b 58); [congruence|]. destruct (N.eqb_spec b 10); [congruence|]. reflexivity. Qed.
Definition ipl (b : N) : Prop := (0 < b < 128)%N /\ b <> 34%N /\ b <> 58%N /\ b <> 10%N.
Lemma items_safe e o x r a h : side_tok e o h -> Forall ipl (itx (items_of o x r a h)).
Proof.
  intros H. assert (T : forall k, Forall ipl (time_text k)).
  { intros [t|]; [|constructor]. unfold time_text. destruct (tok_real t); [|constructor]. rewrite times_text_eq. eapply Forall_impl; [|apply times_bytes].
    intros b Hb. unfold numeric, isd, ipl in *. lia. }
  assert (K : forall k, Forall ipl (conf_text k)).
  { intros [t|]; [|constructor]. unfold conf_text. destruct (tk_conf t); [|constructor]. eapply Forall_impl; [|apply fixed_bytes]. intros b Hb. unfold numeric, isd, ipl in *. lia. }
  assert (C : ipl 44%N) by (unfold ipl; lia).
  unfold items_of. rewrite !itx_app. repeat (apply Forall_app; split).
  - destruct (x_rt x); [|constructor]. cbn. rewrite app_nil_r. constructor; [exact C|apply T].
  - destruct (x_ht x); [|constructor]. cbn. rewrite app_nil_r. constructor; [exact C|apply T].
  - destruct (x_rc x); [|constructor]. cbn. rewrite app_nil_r. constructor; [exact C|apply K].
  - destruct (x_hc x); [|constructor]. cbn. rewrite app_nil_r. constructor; [exact C|apply K].
  - destruct (o_spkr o) eqn:EO; [|constructor]. cbn. rewrite app_nil_r. constructor; [exact C|]. apply Forall_app. split; [|constructor; [exact C|]].
    + destruct h as [t|]; [|constructor]. destruct H as [_ H]. specialize (H EO). eapply Forall_impl; [|exact H]. intros b (P1 & P2 & P3 & P4 & P5). repeat split; (exact P2 || exact P4 || exact P5 || apply P1).
    + unfold sub_text. destruct h; [|constructor]. destruct r; cbn; repeat (apply Forall_cons; [unfold ipl; lia|]); apply Forall_nil.
Qed.
Lemma side_text_safe e o r k : side_tok e o k -> qtext sep (side_text o r k) /\ ~ In 10%N (side_text o r k).
Proof.
  intros H. destruct k as [t|]; cbn [side_text].
  - destruct H as [H _]. pose proof (shown_field e o t H) as F. rewrite <- tok_text_eq in F. unfold quoted, QUOTE. cbn [app]. split.
    + constructor; [| |constructor]; intro I; apply (fld_safe e _ _ F) in I; tauto.
    + intros [I|I]; [discriminate|]. apply in_app_or in I as [I|I]; [apply (fld_safe e _ _ F) in I; tauto|cbn in I; intuition discriminate].
  - destruct (correct r).
    + unfold quoted, QUOTE. cbn [app]. split; [apply (qt_quoted sep [] []); [intros []|intros []|constructor]|cbn; intuition discriminate].
    + split; [constructor|intros []].
Qed.
Lemma ct_safe e o x c : good e o x c -> qtext sep (ct o x c) /\ ~ In 10%N (ct o x c).
Proof.
  intros H. destruct (good_eval e o x c H) as (r & h & E & N & _). destruct H as ((HA & HH) & _). unfold ct. rewrite E in *. destruct HH as [HH _].
  destruct (side_text_safe e o r (c_ref c) HA) as [A1 A2]. destruct (side_text_safe e o r h HH) as [B1 B2].
  pose proof (items_safe e o x r (c_ref c) h HH) as IS. unfold ctext, chead. split.
  - repeat apply qtext_app; try assumption; try (apply qtext_plain; destruct r; reflexivity).
    apply qt_safe. eapply Forall_impl; [|exact IS]. intros b (I1 & I2 & I3 & I4). split; [exact I1|]. split; [exact I2|]. apply in_sep; assumption.
  - repeat apply no10_app; try assumption; try (destruct r; cbn; intuition discriminate). intro I. rewrite Forall_forall in IS. apply IS in I as (_ & _ & _ & I). congruence.
Qed.
Lemma ct_head e o x c : good e o x c -> exists b y, ct o x c = b :: y /\ (0 < b < 128)%N /\ in_set sep b = false /\ b <> 60%N.
Proof.
  intros H. destruct (good_eval e o x c H) as (r & h & E & N & _). unfold ct. rewrite E.
  destruct r; cbn; eexists; eexists; (split; [reflexivity|]); (split; [lia|]); (split; [reflexivity|discriminate]).
Qed.
Fixpoint ctail (o : opts) (x : auxs) (l : list cell) : str :=
  match l with [] => [] | c :: r => ct o x c ++ (match r with [] => 10%N | _ => 58%N end) :: ctail o x r end.
Definition cdata (o : opts) (x : auxs) (l : list cell) : str := match l with [] => NL | _ => ctail o x l end.
Lemma cells_text_ok e o x l : Forall (good e o x) l -> exists t, cells_text o x l = Ok t /\ t ++ NL = cdata o x l /\ ~ In 10%N t.
Proof.
  intros H. induction H as [|c l Hc Hl IH]; [exists []; split; [reflexivity|split; [reflexivity|intros []]]|]. destruct l as [|d l].
  - exists (ct o x c). split; [apply (cell_ct e); exact Hc|]. split; [reflexivity|apply (ct_safe e o x c Hc)].
  - destruct IH as (t & Et & Ed & Nt). exists (ct o x c ++ B ":" ++ t). split; [|split].
    + change (cells_text o x (c :: d :: l)) with (let* t := cell_text o x c in let* u := cells_text o x (d :: l) in Ok (t ++ B ":" ++ u)).
      rewrite (cell_ct e) by exact Hc. cbn [rbind]. rewrite Et. reflexivity.
    + rewrite <- !app_assoc, Ed. reflexivity.
    + apply no10_app; [apply (ct_safe e o x c Hc)|]. apply no10_app; [cbn; intuition discriminate|exact Nt].
Qed.
Lemma read_ctail e o x fields l : (akinds o x = [] \/ fields = akinds o x) -> Forall (good e o x) l ->
  forall f T p, length l < f -> length (ctail o x l) < length T -> length (pa_set (o_path p)) + length l <= o_max p ->
  read_data f e (cstr (ctail o x l)) T fields p = Ok (with_set p (pa_set (o_path p) ++ map (entry_of o) l)).
Proof.
  intros HF HL. induction HL as [|c l Hc HL IH]; intros f T p Hf HT HO; (destruct f as [|f]; [cbn in Hf; lia|]); cbn [read_data].
  - cbn. rewrite app_nil_r. destruct p as [p m]. destruct p. reflexivity.
  - change (ctail o x (c :: l)) with (ct o x c ++ (match l with [] => 10%N | _ => 58%N end) :: ctail o x l) in *.
    set (b := match l with [] => 10%N | _ => 58%N end) in *.
    assert (Hb : (b < 128)%N /\ b <> 0%N /\ in_set sep b = true) by (subst b; destruct l; repeat split; lia || discriminate).
    rewrite app_length in HT. cbn [length] in HT, Hf, HO.
    unfold cstr. rewrite <- app_assoc. cbn [app].
    destruct (ct_head e o x c Hc) as (q & y & EX & Hq & Nq & _).
    rewrite strqtok_ok; [|apply (ct_safe e); exact Hc|exists q, y; auto|apply Hb|apply Hb|apply Hb|lia]. cbn [rbind].
    assert (RC' : forall j, read_entry (ct o x c ++ 0%N :: j) fields = Ok (entry_of o c)).
    { intros j. destruct (good_eval e o x c Hc) as (r & h & E & _). unfold ct. rewrite E. apply (read_cell e); assumption. }
    rewrite RC'. cbn [rbind]. unfold push. destruct (Nat.ltb_spec (length (pa_set (o_path p))) (o_max p)); [|lia]. cbn [rbind].
    change (ctail o x l ++ [0%N]) with (cstr (ctail o x l)). rewrite IH.
    + cbn [pa_set o_path with_set]. rewrite <- app_assoc. reflexivity.
    + lia.
    + rewrite app_length. cbn [length]. rewrite skipn_length. lia.
    + cbn [pa_set o_path o_max]. rewrite app_length. cbn [length]. lia.
Qed.
Lemma ctail_len o x l : length l <= length (ctail o x l).
Proof. induction l as [|c l IH]; [reflexivity|]. cbn [ctail length]. rewrite app_length. cbn [length]. lia. Qed.

(** ** The tag of a path *)
Definition flg (o : opts) (x : auxs) (g : seg) : flags :=
  {| f_char := false; f_case := o_case o; f_hwt := x_ht x; f_rwt := x_rt x; f_ht := false; f_rt := real (sg_t1 g) (sg_t2 g);
     f_hconf := x_hc x; f_rconf := x_rc x; f_hwgt := false; f_rwgt := false |}.
Definition spath (o : opts) (x : auxs) (g : seg) (l : list entry) : rpath :=
  {| pa_id := sg_id g; pa_labels := nonempty (sg_label g); pa_file := nonempty (sg_source g); pa_channel := nonempty (sg_chan g);
     pa_seq := sg_num g; pa_flags := flg o x g;
     pa_rt1 := if real (sg_t1 g) (sg_t2 g) then sg_t1 g else 0%Z; pa_rt2 := if real (sg_t1 g) (sg_t2 g) then sg_t2 g else 0%Z;
     pa_ht1 := 0; pa_ht2 := 0; pa_set := l |}.
Definition has_aux (o : opts) (x : auxs) : bool := match akinds o x with [] => false | _ => true end.
Definition satts (o : opts) (x : auxs) (g : seg) : atts :=
  flag1 true "id" (sg_id g) ++ flag1 true "word_cnt" (int_text (Z.of_nat (length (sg_cells g))))
  ++ flag1 (not_empty (sg_label g)) "labels" (sg_label g) ++ flag1 (not_empty (sg_source g)) "file" (sg_source g)
  ++ flag1 (not_empty (sg_chan g)) "channel" (sg_chan g) ++ flag1 true "sequence" (int_text (sg_num g))
  ++ flag1 (real (sg_t1 g) (sg_t2 g)) "R_T1" (fixed 3 (sg_t1 g)) ++ flag1 (real (sg_t1 g) (sg_t2 g)) "R_T2" (fixed 3 (sg_t2 g))
  ++ flag1 (has_aux o x) "word_aux" (commas (map (fun a => B (aname a)) (akinds o x))) ++ flag1 (o_case o) "case_sense" (B "1").
Lemma satts_cons o x g : satts o x g = ("id"%string, sg_id g) :: tl (satts o x g).
Proof. reflexivity. Qed.
Lemma seg_text_eq o x g t : cells_text o x (sg_cells g) = Ok t ->
  seg_text o x g = Ok ((B "<" ++ B "PATH" ++ tagtext (satts o x g) ++ B ">" ++ NL) ++ (t ++ NL) ++ (B "</" ++ B "PATH" ++ B ">" ++ NL)).
Proof.
  intros E. unfold seg_text. rewrite E. cbn [rbind]. f_equal. unfold satts. rewrite !tagtext_app, !tagtext_flag1, word_aux_eq. unfold has_aux. cbn [flag_attr].
  rewrite <- !app_assoc. reflexivity.
Qed.
Lemma satts_ok e o x g : seg_ok e o g -> Forall (okatt e) (satts o x g).
Proof.
  intros (H1 & H2 & H3 & H4 & _). unfold satts.
  repeat (apply Forall_app; split); apply ok_flag1; try reflexivity; intros _;
    try assumption; try (apply field_numeric; apply int_bytes); try (apply field_numeric; apply fixed_bytes); try (apply field_plain; reflexivity).
  generalize (akinds o x). intros l. apply field_plain. clear.
  induction l as [|a l IH]; [reflexivity|]. destruct l as [|b l]; [destruct a; reflexivity|].
  cbn [map commas] in *. rewrite !forallb_app, IH. destruct a; reflexivity.
Qed.
Lemma satts_len o x g : length (satts o x g) <= 10.
Proof.
  unfold satts. destruct (not_empty (sg_label g)), (not_empty (sg_source g)), (not_empty (sg_chan g)), (real (sg_t1 g) (sg_t2 g)), (has_aux o x), (o_case o); cbn; lia.
Qed.
Definition fafter (o : opts) (x : auxs) (fields : list aux) : list aux := match akinds o x with [] => fields | k => k end.
Ltac lks := unfold satts; rewrite !lk_app, ?lk_flag1; cbn [String.eqb Ascii.eqb Bool.eqb].
Lemma or_none_if s : or_none (if not_empty s then Some s else None) = nonempty s.
Proof. destruct s; reflexivity. Qed.
Lemma akinds_len o x : length (akinds o x) <= 6.
Proof. unfold akinds. destruct (x_rt x), (x_ht x), (x_rc x), (x_hc x), (o_spkr o); cbn; lia. Qed.
Lemma begin_seg e o x g fields : seg_ok e o g ->
  begin_path e (pairs (satts o x g)) fields = Ok ({| o_path := spath o x g []; o_max := room (length (sg_cells g)) |}, fafter o x fields).
Proof.
  intros HG. pose proof (satts_ok e o x g HG) as HA. unfold begin_path.
  assert (L1 : lk (satts o x g) "word_cnt" = Some (int_text (Z.of_nat (length (sg_cells g))))) by (lks; reflexivity).
  assert (L2 : lk (satts o x g) "labels" = if not_empty (sg_label g) then Some (sg_label g) else None) by (lks; destruct (not_empty (sg_label g)); reflexivity).
  assert (L3 : lk (satts o x g) "file" = if not_empty (sg_source g) then Some (sg_source g) else None) by (lks; destruct (not_empty (sg_source g)); reflexivity).
  assert (L4 : lk (satts o x g) "channel" = if not_empty (sg_chan g) then Some (sg_chan g) else None) by (lks; destruct (not_empty (sg_chan g)); reflexivity).
  assert (L5 : lk (satts o x g) "sequence" = Some (int_text (sg_num g))) by (lks; reflexivity).
  assert (L6 : lk (satts o x g) "id" = Some (sg_id g)) by (lks; reflexivity).
  assert (L7 : lk (satts o x g) "word_aux" = if has_aux o x then Some (commas (map (fun a => B (aname a)) (akinds o x))) else None)
    by (lks; destruct (has_aux o x); reflexivity).
  rewrite (get_attrib_ok e _ "word_cnt") by (exact HA || reflexivity). rewrite L1. cbn [rbind dflt]. rewrite atof_int. cbn [rbind].
  rewrite (opt_text_ok e _ "labels") by (exact HA || reflexivity). rewrite L2, or_none_if. cbn [rbind].
  rewrite (get_attrib_ok e _ "id") by (exact HA || reflexivity). rewrite L6. cbn [rbind dflt].
  rewrite (opt_text_ok e _ "file") by (exact HA || reflexivity). rewrite L3, or_none_if. cbn [rbind].
  rewrite (opt_text_ok e _ "channel") by (exact HA || reflexivity). rewrite L4, or_none_if. cbn [rbind].
  rewrite (opt_text_ok e _ "sequence") by (exact HA || reflexivity). rewrite L5. cbn [rbind].
  set (R := real (sg_t1 g) (sg_t2 g)).
  rewrite (time_attr_ok e _ "R_T1" R (sg_t1 g)) by (try exact HA; try reflexivity; lks; fold R; destruct R; reflexivity). cbn [rbind].
  rewrite (time_attr_ok e _ "R_T2" R (sg_t2 g)) by (try exact HA; try reflexivity; lks; fold R; destruct R; reflexivity). cbn [rbind].
  rewrite (time_attr_ok e _ "H_T1" false 0) by (try exact HA; try reflexivity; lks; reflexivity). cbn [rbind].
  rewrite (time_attr_ok e _ "H_T2" false 0) by (try exact HA; try reflexivity; lks; reflexivity). cbn [rbind].
  assert (LF : forall n b, lk (satts o x g) n = (if b : bool then Some (B "1") else None) -> okname n = true -> given e (pairs (satts o x g)) n = Ok b).
  { intros n b E Hn. rewrite given_ok by assumption. rewrite E. destruct b; reflexivity. }
  rewrite (LF "char_align"%string false) by (try reflexivity; lks; reflexivity). cbn [rbind].
  rewrite (LF "case_sense"%string (o_case o)) by (try reflexivity; lks; destruct (o_case o); reflexivity). cbn [rbind].
  rewrite (LF "hyp_weight"%string false) by (try reflexivity; lks; reflexivity). cbn [rbind].
  rewrite (LF "ref_weight"%string false) by (try reflexivity; lks; reflexivity). cbn [rbind].
  rewrite (get_attrib_ok e _ "word_aux") by (exact HA || reflexivity). cbn [rbind].
  rewrite teq_ok by (apply dflt_text, HA || apply text_nil). rewrite L7. cbn [rbind].
  assert (HS : or_none (Some (int_text (sg_num g))) = Some (int_text (sg_num g))).
  { destruct (int_text (sg_num g)) eqn:E; [|reflexivity]. exfalso. unfold int_text in E. apply app_eq_nil in E as [_ E]. exact (proj2 (proj2 (nat_text_ok _)) E). }
  rewrite HS. rewrite atoi_int. unfold fafter, room, spath.
  set (fl0 := {| f_char := false; f_case := o_case o; f_hwt := false; f_rwt := false; f_ht := _; f_rt := _; f_hconf := false; f_rconf := false; f_hwgt := false; f_rwgt := false |}).
  assert (EQ : forall z : res (flags * list aux), z = Ok (flg o x g, match akinds o x with [] => fields | k => k end) ->
    (if Scores_Model.same (dflt (if has_aux o x then Some (commas (map (fun a => B (aname a)) (akinds o x))) else None)) [] then Ok (fl0, fields)
     else aux_loop (S (length (dflt (if has_aux o x then Some (commas (map (fun a => B (aname a)) (akinds o x))) else None)))) e
            (cstr (dflt (if has_aux o x then Some (commas (map (fun a => B (aname a)) (akinds o x))) else None))) fl0 []) = z).
  { intros z ->. unfold has_aux. destruct (akinds o x) as [|a k] eqn:EK.
    - cbn [dflt]. rewrite same_refl. f_equal. f_equal. subst fl0. unfold flg. fold R. unfold akinds in EK.
      destruct (x_rt x), (x_ht x), (x_rc x), (x_hc x), (o_spkr o); try discriminate EK. destruct R; reflexivity.
    - cbv iota. cbn [dflt]. rewrite same_neq by (destruct a, k as [|? ?]; discriminate). rewrite aux_loop_ok.
      + cbn [app]. f_equal. f_equal. rewrite <- EK. subst fl0. unfold flg. fold R. unfold akinds. destruct (x_rt x), (x_ht x), (x_rc x), (x_hc x), (o_spkr o), R; reflexivity.
      + pose proof (akinds_len o x) as KL. rewrite EK in KL. cbn [length] in *. lia.
      + clear. apply Nat.lt_succ_r. generalize (a :: k). clear. induction l as [|x l IH]; [cbn; lia|].
        destruct l as [|y l]; [destruct x; cbn; lia|].
        change (commas (map (fun a0 => B (aname a0)) (x :: y :: l))) with (B (aname x) ++ 44%N :: commas (map (fun a0 => B (aname a0)) (y :: l))).
        rewrite app_length. cbn [length] in *. lia. }
  rewrite (EQ _ eq_refl). cbn [rbind]. fold R. destruct R; reflexivity.
Qed.

Section read.
  Variables (e : enc) (maxn : nat) (o : opts) (x : auxs).
  Notation runs := (Runs e maxn).
  Definition gseg (g : seg) : Prop := seg_ok e o g /\ Forall (good e o x) (sg_cells g).
  Definition sread (g : seg) : rpath := spath o x g (map (entry_of o) (sg_cells g)).
  Lemma run_seg_tag tags done cur i pp fields g : gseg g -> length tags < 10 ->
    runs (Build_state tags done cur (Some i) pp fields) (B "<" ++ B "PATH" ++ tagtext (satts o x g) ++ B ">" ++ NL)
         (Build_state ((B "PATH", pairs (satts o x g)) :: tags) done cur (Some i) (Some {| o_path := spath o x g []; o_max := room (length (sg_cells g)) |}) (fafter o x fields)).
  Proof.
    intros [HP _] Ht. pose proof (satts_ok e o x g HP) as HA. pose proof (satts_len o x g) as HL.
    rewrite satts_cons in HA, HL. rewrite satts_cons at 1. cbn [length] in HL. apply tag_line; [reflexivity|discriminate|exact HA|lia|exact Ht|].
    unfold begin_tag. cbn [s_tags s_done s_cur s_spk s_path s_fields]. rewrite (add_tag_ok e tags "PATH" "id") by (try assumption; try reflexivity; lia). cbn [rbind].
    rewrite <- satts_cons. rewrite !teqB by reflexivity. cbn [rbind String.eqb Ascii.eqb Bool.eqb].
    rewrite begin_seg by exact HP. reflexivity.
  Qed.
  Lemma run_cdata tags done cur i g fields : gseg g -> (akinds o x = [] \/ fields = akinds o x) -> exists t, cells_text o x (sg_cells g) = Ok t /\
    runs (Build_state tags done cur i (Some {| o_path := spath o x g []; o_max := room (length (sg_cells g)) |}) fields) (t ++ NL)
         (Build_state tags done cur i (Some {| o_path := sread g; o_max := room (length (sg_cells g)) |}) fields).
  Proof.
    intros [_ HG] HF. destruct (cells_text_ok e o x (sg_cells g) HG) as (t & ET & ED & NT). exists t. split; [exact ET|]. apply Runs_one; [exact NT|].
    rewrite ED. clear ED NT t ET. unfold sread. destruct (sg_cells g) as [|c l] eqn:EP.
    - cbn [cdata length map]. unfold read_line, cstr, NL. cbn [app rd rbind]. change (10 =? 60)%N with false. cbv iota. cbn [s_path rbind].
      cbn [length]. cbn [read_data]. unfold strqtok. rewrite strspn_in by (lia || reflexivity). rewrite strspn_out by (lia || (left; reflexivity)). reflexivity.
    - change (cdata o x (c :: l)) with (ctail o x (c :: l)). inversion HG as [|? ? Hc HL]; subst.
      destruct (ct_head e o x c Hc) as (q & y & EX & Hq & _ & N60).
      assert (EH : exists z, ctail o x (c :: l) = q :: z) by (eexists; cbn [ctail]; rewrite EX; reflexivity).
      destruct EH as (z & EQ). unfold read_line. rewrite EQ at 1. unfold cstr at 1. cbn [app rd rbind]. destruct (N.eqb_spec q 60); [contradiction|].
      cbn [rbind s_path]. rewrite (read_ctail e o x fields (c :: l)); [reflexivity|exact HF|exact HG| | |].
      + pose proof (ctail_len o x (c :: l)). unfold cstr. rewrite app_length. cbn [length] in *. lia.
      + unfold token_buffer. rewrite repeat_length. destruct (Nat.ltb_spec 99 (length (ctail o x (c :: l)))); lia.
      + cbn [o_path pa_set o_max spath]. pose proof (room_enough (length (c :: l))). cbn [length] in *. lia.
  Qed.
  Lemma run_segs tags done r gs n l : length tags < 10 -> Forall gseg l -> forall ps fields, exists t fields',
    segs_text o x l = Ok t /\
    runs (Build_state tags done (Some (with_grps r (gs ++ [(n, ps)]))) (Some (length gs)) None fields) t
         (Build_state tags done (Some (with_grps r (gs ++ [(n, ps ++ map sread l)]))) (Some (length gs)) None fields').
  Proof.
    intros Ht HL. induction HL as [|p l Hp HL IH]; intros ps fields.
    - exists [], fields. split; [reflexivity|]. cbn [map]. rewrite app_nil_r. constructor.
    - destruct (run_cdata ((B "PATH", pairs (satts o x p)) :: tags) done (Some (with_grps r (gs ++ [(n, ps)]))) (Some (length gs)) p (fafter o x fields) Hp) as (d & E1 & R1).
      { unfold fafter. destruct (akinds o x); [left|right]; reflexivity. }
      destruct (IH (ps ++ [sread p]) (fafter o x fields)) as (t & fields' & E2 & R).
      pose proof (seg_text_eq o x p d E1) as E3. eexists. exists fields'. split.
      + cbn [segs_text]. rewrite E3. cbn [rbind]. rewrite E2. cbn [rbind]. reflexivity.
      + cbn [map]. replace (ps ++ sread p :: map sread l) with ((ps ++ [sread p]) ++ map sread l) by (rewrite <- app_assoc; reflexivity).
        eapply Runs_app; [|exact R]. eapply Runs_app; [apply run_seg_tag; assumption|]. eapply Runs_app; [exact R1|].
        exact (end_path e maxn tags (pairs (satts o x p)) done r gs n ps {| o_path := sread p; o_max := room (length (sg_cells p)) |} _).
  Qed.
  Lemma run_spks tags done r l : length tags < 9 -> forall gs fields pp, NoDup (map fst gs ++ map k_name l) ->
    Forall (fun k => field e (k_name k) /\ Forall gseg (k_segs k)) l -> pp = None -> exists t fields',
    spks_text o x l = Ok t /\
    runs (Build_state tags done (Some (with_grps r gs)) None pp fields) t
         (Build_state tags done (Some (with_grps r (gs ++ map (fun k => (k_name k, map sread (k_segs k))) l))) None None fields').
  Proof.
    intros Ht. induction l as [|k l IH]; intros gs fields pp ND HL ->.
    - exists [], fields. split; [reflexivity|]. cbn [map]. rewrite app_nil_r. constructor.
    - inversion HL as [|? ? [Hn HP] HL']; subst. set (n := k_name k) in *. set (ps := k_segs k) in *.
      assert (NI : ~ In n (map fst gs)).
      { intro I. cbn [map] in ND. apply NoDup_remove_2 in ND. apply ND. apply in_or_app. left. exact I. }
      destruct (run_segs ((B "SPEAKER", pairs [("id"%string, n)]) :: tags) done r gs n ps ltac:(cbn [length]; lia) HP [] fields) as (t & fields1 & E1 & R1).
      destruct (IH (gs ++ [(n, map sread ps)]) fields1 None) as (u & fields2 & E2 & R2); [|exact HL'|reflexivity|].
      { rewrite map_app, <- app_assoc. exact ND. }
      eexists. exists fields2. split.
      + cbn [spks_text]. fold ps. rewrite E1. cbn [rbind]. rewrite E2. cbn [rbind]. reflexivity.
      + cbn [map]. fold n. fold ps. replace (gs ++ (n, map sread ps) :: map (fun k => (k_name k, map sread (k_segs k))) l)
          with ((gs ++ [(n, map sread ps)]) ++ map (fun k => (k_name k, map sread (k_segs k))) l) by (rewrite <- app_assoc; reflexivity).
        replace (B "<SPEAKER" ++ attr "id" n ++ B ">" ++ NL ++ t ++ B "</SPEAKER>" ++ NL ++ u)
          with ((B "<" ++ B "SPEAKER" ++ tagtext [("id"%string, n)] ++ B ">" ++ NL) ++ t ++ (B "</" ++ B "SPEAKER" ++ B ">" ++ NL) ++ u).
        2:{ unfold tagtext. cbn [map concat fst snd]. rewrite app_nil_r. rewrite <- !app_assoc. reflexivity. }
        eapply Runs_app; [|eapply Runs_app; [exact R1|eapply Runs_app; [|exact R2]]].
        * apply tag_line; [reflexivity|discriminate| |cbn; lia|cbn; lia|].
          { constructor; [split; [reflexivity|exact Hn]|constructor]. }
          unfold begin_tag. cbn [s_tags s_done s_cur s_spk s_path s_fields].
          rewrite add_tag_ok; [|lia|reflexivity|constructor; [split; [reflexivity|exact Hn]|constructor]|cbn; lia]. cbn [rbind].
          rewrite !teqB by reflexivity. cbn [rbind String.eqb Ascii.eqb Bool.eqb].
          rewrite (get_attrib_ok e [("id"%string, n)] "id"); [|constructor; [split; [reflexivity|exact Hn]|constructor]|reflexivity]. cbn [rbind lk dflt String.eqb Ascii.eqb Bool.eqb].
          unfold get_grp. cbn [r_grps with_grps]. rewrite find_grp_none by exact NI. reflexivity.
        * apply end_line; [reflexivity|]. unfold end_tag. cbn [s_tags s_done s_cur s_spk s_path s_fields].
          change (delete_tag ((B "SPEAKER", pairs [("id"%string, n)]) :: tags) (cstr (B "</" ++ B "SPEAKER" ++ B ">" ++ NL))) with (Ok (Some (B "SPEAKER", tags))). cbn [rbind].
          rewrite !teqB by reflexivity. cbn [rbind String.eqb Ascii.eqb Bool.eqb]. reflexivity.
  Qed.

  (** ** Labels *)
  Lemma of_kind_app k a b : of_kind k (a ++ b) = of_kind k a ++ of_kind k b.
  Proof. unfold of_kind. apply flat_map_app. Qed.
  Lemma of_kind_in k l y : In y (of_kind k l) <-> In (k, y) l.
  Proof.
    unfold of_kind. rewrite in_flat_map. split.
    - intros ([k' z] & I & J). cbn [fst snd] in J. destruct k', k; cbn in J; try contradiction; destruct J as [->|[]]; exact I.
    - intros I. exists (k, y). split; [exact I|]. destruct k; left; reflexivity.
  Qed.
  Lemma run_cat tags done r pp fields l : length tags < 10 -> Forall (fun y => label_ok e (snd y)) l -> forall pre, NoDup (pre ++ l) -> Forall (fun y => label_ok e (snd y)) pre ->
    runs (Build_state tags done (Some (with_labels r (of_kind LLabel pre) (of_kind LCategory pre))) None pp fields) (concat (map category_text l))
         (Build_state tags done (Some (with_labels r (of_kind LLabel (pre ++ l)) (of_kind LCategory (pre ++ l)))) None pp fields).
  Proof.
    intros Ht HL. induction HL as [|[k y] l Hy HL IH]; intros pre ND HLS; cbn [map concat]; [rewrite app_nil_r; constructor|].
    replace (pre ++ (k, y) :: l) with ((pre ++ [(k, y)]) ++ l) in * by (rewrite <- app_assoc; reflexivity).
    eapply Runs_app; [|apply IH; [exact ND|apply Forall_app; auto]]. unfold category_text. cbn [fst snd] in *.
    assert (NI : ~ In y (of_kind k pre)).
    { rewrite of_kind_in. intro I. rewrite <- app_assoc in ND. apply NoDup_remove_2 in ND. apply ND. apply in_or_app. left. exact I. }
    assert (PR : forall k, Forall (label_ok e) (of_kind k pre)).
    { intros k'. apply Forall_forall. intros z Hz. apply of_kind_in in Hz. rewrite Forall_forall in HLS. apply (HLS _ Hz). }
    rewrite !of_kind_app. rewrite label_text_eq.
    apply Runs_app with (b := Build_state ((B (kind_name k), pairs (lab_atts y)) :: tags) done
      (Some (with_labels r (of_kind LLabel pre ++ of_kind LLabel [(k, y)]) (of_kind LCategory pre ++ of_kind LCategory [(k, y)]))) None pp fields).
    - unfold lab_atts. apply tag_line; [destruct k; reflexivity|destruct k; discriminate|apply (lab_atts_ok e y Hy)|cbn; lia|exact Ht|].
      unfold begin_tag. cbn [s_tags s_done s_cur s_spk s_path s_fields].
      rewrite add_tag_ok; [|lia|destruct k; reflexivity|apply (lab_atts_ok e y Hy)|cbn; lia]. cbn [rbind].
      change (pairs [("id"%string, lb_id y); ("title"%string, lb_title y); ("desc"%string, lb_desc y)]) with (pairs (lab_atts y)).
      destruct k; cbn [kind_name]; rewrite !teqB by reflexivity; cbn [rbind String.eqb Ascii.eqb Bool.eqb orb];
        rewrite read_label_ok by (try reflexivity; try assumption; cbn; lia); cbn [r_labels r_cats with_labels].
      + rewrite comment_label by auto. destruct (in_dec label_dec y (of_kind LLabel pre)) as [I|I]; [contradiction|]. cbn [rbind snd]. cbn. rewrite !app_nil_r. reflexivity.
      + rewrite comment_cat by auto. destruct (in_dec label_dec y (of_kind LCategory pre)) as [I|I]; [contradiction|]. cbn [rbind snd]. cbn. rewrite !app_nil_r. reflexivity.
    - destruct k; cbn [kind_name]; (apply end_line; [reflexivity|]); unfold end_tag; cbn [s_tags s_done s_cur s_spk s_path s_fields].
      + match goal with |- context [delete_tag ?a ?b] => change (delete_tag a b) with (Ok (Some (B "LABEL", tags))) end. cbn [rbind].
        rewrite !teqB by reflexivity. cbn [rbind String.eqb Ascii.eqb Bool.eqb]. reflexivity.
      + match goal with |- context [delete_tag ?a ?b] => change (delete_tag a b) with (Ok (Some (B "CATEGORY", tags))) end. cbn [rbind].
        rewrite !teqB by reflexivity. cbn [rbind String.eqb Ascii.eqb Bool.eqb]. reflexivity.
  Qed.

  (** ** The system *)
  Definition base (title ref hyp date : str) : report :=
    {| r_title := title; r_ref := nonempty ref; r_hyp := nonempty hyp; r_date := nonempty date; r_frag := o_frag o; r_opt := o_both o; r_wali := false; r_wfile := None;
       r_labels := []; r_cats := []; r_grps := [] |}.
  Lemma same_nil s : (if Scores_Model.same s [] then None else Some s) = nonempty s.
  Proof. destruct s; reflexivity. Qed.
  Lemma begin_sys title f h d : field e title -> field e f -> field e h -> field e d ->
    begin_system e (pairs (sys_atts (base title f h d) f h d [])) = Ok (base title f h d).
  Proof.
    intros Ht Hf Hh Hd. pose proof (sys_atts_ok e (base title f h d) f h d [] Ht Hf Hh Hd ltac:(apply field_plain; reflexivity)) as HA. unfold begin_system.
    assert (G : forall n v, lk (sys_atts (base title f h d) f h d []) n = Some v -> okname n = true -> get_attrib e (pairs (sys_atts (base title f h d) f h d [])) (B n) = Ok v).
    { intros n v E Hn. rewrite get_attrib_ok by assumption. rewrite E. reflexivity. }
    rewrite (G "title"%string title) by reflexivity. cbn [rbind].
    rewrite (G "ref_fname"%string f) by reflexivity. cbn [rbind]. rewrite teq_ok by (apply Hf || apply text_nil). cbn [rbind].
    rewrite (G "hyp_fname"%string h) by reflexivity. cbn [rbind]. rewrite teq_ok by (apply Hh || apply text_nil). cbn [rbind].
    rewrite (G "creation_date"%string d) by reflexivity. cbn [rbind]. rewrite teq_ok by (apply Hd || apply text_nil). cbn [rbind].
    rewrite (G "frag_corr"%string (truth (o_frag o))) by reflexivity. cbn [rbind]. rewrite truth_ok. cbn [rbind].
    rewrite (G "opt_del"%string (truth (o_both o))) by reflexivity. cbn [rbind]. rewrite truth_ok. cbn [rbind].
    rewrite (G "weight_ali"%string (truth false)) by reflexivity. cbn [rbind]. rewrite truth_ok. cbn [rbind].
    rewrite (G "weight_filename"%string []) by reflexivity. cbn [rbind]. rewrite !same_nil. reflexivity.
  Qed.
  Lemma run_report title f h d labels ks u : field e title -> field e f -> field e h -> field e d -> 1 <= maxn ->
    Forall (fun y => label_ok e (snd y)) labels -> NoDup labels -> NoDup (map k_name ks) -> Forall (fun k => field e (k_name k) /\ Forall gseg (k_segs k)) ks ->
    spks_text o x ks = Ok u ->
    load e maxn (B "<SYSTEM" ++ attr "title" title ++ attr "ref_fname" f ++ attr "hyp_fname" h
          ++ attr "creation_date" d ++ attr "format" (B "2.4") ++ attr "frag_corr" (truth (o_frag o))
          ++ attr "opt_del" (truth (o_both o)) ++ attr "weight_ali" (B "FALSE") ++ attr "weight_filename" [] ++ B ">" ++ NL
          ++ concat (map category_text labels) ++ u ++ B "</SYSTEM>" ++ NL) =
    Ok [with_grps (with_labels (base title f h d) (of_kind LLabel labels) (of_kind LCategory labels)) (map (fun k => (k_name k, map sread (k_segs k))) ks)].
  Proof.
    intros Ht Hf Hh Hd Hn HL NL1 NK HK EU.
    set (at_ := sys_atts (base title f h d) f h d []).
    pose proof (sys_atts_ok e (base title f h d) f h d [] Ht Hf Hh Hd ltac:(apply field_plain; reflexivity)) as HA.
    destruct (run_spks [(B "SYSTEM", pairs at_)] [] (with_labels (base title f h d) (of_kind LLabel labels) (of_kind LCategory labels)) ks ltac:(cbn; lia) [] [] None NK HK eq_refl) as (t & fs & Et & RG).
    rewrite EU in Et. injection Et as <-.
    assert (RUN : Runs e maxn (Build_state [] [] None None None [])
      ((B "<" ++ B "SYSTEM" ++ tagtext at_ ++ B ">" ++ NL) ++ concat (map category_text labels) ++ u ++ (B "</" ++ B "SYSTEM" ++ B ">" ++ NL))
      (Build_state [] ([] ++ [with_grps (with_labels (base title f h d) (of_kind LLabel labels) (of_kind LCategory labels)) (map (fun k => (k_name k, map sread (k_segs k))) ks)]) None None None fs)).
    { eapply Runs_app.
      - unfold at_, sys_atts. apply tag_line; [reflexivity|discriminate|exact HA|cbn; lia|cbn; lia|].
        unfold begin_tag. cbn [s_tags s_done s_cur s_spk s_path s_fields]. rewrite add_tag_ok; [|cbn; lia|reflexivity|exact HA|cbn; lia]. cbn [rbind].
        rewrite !teqB by reflexivity. cbn [rbind String.eqb Ascii.eqb Bool.eqb length app]. destruct (Nat.leb_spec maxn 0); [lia|].
        match goal with |- context [begin_system e (pairs ?l)] => change l with (sys_atts (base title f h d) f h d []) end.
        rewrite begin_sys by assumption. reflexivity.
      - fold at_. eapply Runs_app.
        + change (base title f h d) with (with_labels (base title f h d) (of_kind LLabel []) (of_kind LCategory [])) at 1.
          apply (run_cat [(B "SYSTEM", pairs at_)] [] (base title f h d) None [] labels ltac:(cbn; lia) HL [] NL1). constructor.
        + cbn [app].
          change (with_labels (base title f h d) (of_kind LLabel labels) (of_kind LCategory labels)) with (with_grps (with_labels (base title f h d) (of_kind LLabel labels) (of_kind LCategory labels)) []) at 1.
          eapply Runs_app; [exact RG|]. cbn [app].
          apply end_line; [reflexivity|]. unfold end_tag. cbn [s_tags s_done s_cur s_spk s_path s_fields].
          match goal with |- context [delete_tag ?a ?b] => change (delete_tag a b) with (@Ok (option (str * list tag)) (Some (B "SYSTEM", []))) end. cbn [rbind].
          rewrite !teqB by reflexivity. cbn [rbind String.eqb Ascii.eqb Bool.eqb]. reflexivity. }
    match goal with |- load _ _ ?T = _ => match type of RUN with Runs _ _ _ ?U _ => assert (ET : T = U) end end.
    { unfold at_, sys_atts, tagtext, base. cbn [map concat fst snd r_title r_frag r_opt r_wali]. rewrite app_nil_r, <- !app_assoc. reflexivity. }
    rewrite ET. unfold load. match goal with |- context [S (length ?T)] => set (TT := T) in * end.
    rewrite (Runs_load e maxn _ _ _ (S (length TT)) RUN) by lia. cbn [rbind s_done s_cur app]. reflexivity.
  Qed.
End read.
