(** What is not read back: too many systems, and the report sent to another program. *)
From Coq Require Import String Ascii.
From Coq Require Import List ZArith NArith Arith Bool Lia.
From Verif Require Import Base Text_Model Text_Spec Text_Proofs1 Sgml_Model Sgml_Spec Sgml_Proofs1 Sgml_Proofs2 Sgml_Proofs3 Sgml_Proofs4 Sgml_Proofs5 Sgml_Proofs6.
From Verif Require Read_Model Read_Proofs3 Word_Model Scores_Model.
Import ListNotations.
Local Open Scope res_scope.
Local Open Scope list_scope.

(** ** What is kept *)
Lemma shown_plain s : ~ In 59%N s -> shown s = s.
Proof.
  induction s as [|b s IH]; intros N; [reflexivity|]. cbn [shown flat_map]. change (flat_map (fun b => if (b =? 59)%N then [92%N; b] else [b]) s) with (shown s).
  rewrite IH by (intro I; apply N; right; exact I). destruct (N.eqb_spec b 59) as [->|]; [destruct N; left; reflexivity|reflexivity].
Qed.
Lemma word_kept_ok t c g w : word_kept t c g w -> word_read t c g w = w.
Proof.
  intros (Hv & H1 & H2 & Ht & Hc & Hw). unfold word_read, shown_word. rewrite H1, H2, app_nil_r, shown_plain by exact Hv.
  destruct w as [v g1 g2 t1 t2 cf wt]. cbn in *. subst. f_equal; destruct t, c, g; try reflexivity; try (symmetry; apply Ht; reflexivity); try (symmetry; apply Hc; reflexivity); symmetry; apply Hw; reflexivity.
Qed.
Lemma side_kept_ok t c g w : side_kept t c g w -> option_map (word_read t c g) w = w.
Proof. destruct w as [w|]; [|reflexivity]. intros H. cbn. rewrite word_kept_ok by exact H. reflexivity. Qed.
Lemma entry_kept_ok f x : entry_kept f x -> entry_read f x = x.
Proof.
  intros (H1 & H2 & HA & HB). unfold entry_read. rewrite side_kept_ok, side_kept_ok by assumption. destruct x as [v a b]. cbn in *.
  destruct v; try reflexivity; [rewrite H1 by reflexivity|rewrite H2 by reflexivity]; reflexivity.
Qed.
Lemma map_same {A} (f : A -> A) (P : A -> Prop) l : (forall x, P x -> f x = x) -> Forall P l -> map f l = l.
Proof. intros H F. induction F as [|x l Hx F IH]; [reflexivity|]. cbn. rewrite H, IH by assumption. reflexivity. Qed.
Lemma path_kept_ok p : path_kept p -> path_read p = p.
Proof.
  intros (H1 & H2 & H3 & Hr & Hh & HS). unfold path_read. rewrite (map_same _ _ _ (entry_kept_ok (pa_flags p)) HS).
  assert (O : forall s, s <> Some [] -> or_none s = s) by (intros [[|]|] ?; try reflexivity; congruence).
  rewrite !O by assumption. destruct p as [i l f c s fl rt1 rt2 ht1 ht2 st]. cbn in *.
  f_equal; destruct (f_rt fl), (f_ht fl); try reflexivity; symmetry; try (apply Hr; reflexivity); apply Hh; reflexivity.
Qed.
Lemma report_kept_ok r : report_kept r -> report_read r = r.
Proof.
  intros (Hw & HG). unfold report_read.
  assert (EG : map (fun g => (fst g, map path_read (snd g))) (r_grps r) = r_grps r).
  { apply (map_same _ (fun g : str * list rpath => Forall path_kept (snd g))); [|exact HG]. intros [n ps] F. cbn [fst snd] in *. f_equal. apply (map_same _ _ _ path_kept_ok F). }
  rewrite EG. destruct r. cbn in *. f_equal. destruct r_wali; [reflexivity|]. rewrite Hw; reflexivity.
Qed.

(** ** Too many systems *)
Lemma load_exit e maxn x l r st st' f : Runs e maxn st x st' -> ~ In 10%N l -> read_line e maxn st' (l ++ NL) = Exit -> length x + length (l ++ NL ++ r) < f ->
  load_loop f e maxn {| Read_Model.rest := x ++ l ++ NL ++ r; Read_Model.feof := false |} st = Exit.
Proof.
  intros R N E Hf. destruct (Runs_prefix e maxn st x st' R (l ++ NL ++ r) f Hf) as (f' & L & ->). destruct f' as [|f']; [lia|].
  rewrite load_line by exact N. rewrite E. reflexivity.
Qed.
Lemma ok_inj {A} (a b : A) : Ok a = Ok b -> a = b.
Proof. intros E. injection E as ->. reflexivity. Qed.
Lemma dumps_app d a b x y : dumps d a = Ok x -> dumps d b = Ok y -> dumps d (a ++ b) = Ok (x ++ y).
Proof.
  revert x. induction a as [|r a IH]; intros x Ha Hb; [injection Ha as <-; exact Hb|]. cbn [dumps app] in *. destruct (d r) as [t| | |]; try discriminate. cbn [rbind] in *.
  destruct (dumps d a) as [u| | |]; try discriminate. cbn [rbind] in *. apply ok_inj in Ha; subst x. rewrite (IH u) by auto. cbn [rbind]. rewrite app_assoc. reflexivity.
Qed.
Lemma sys_tag_exit e maxn done r f h d fields : report_ok e r -> r_ref r = Some f -> r_hyp r = Some h -> r_date r = Some d -> maxn <= length done ->
  exists l, B "<" ++ B "SYSTEM" ++ tagtext (sys_atts r f h d (wname r)) ++ B ">" ++ NL = l ++ NL /\ ~ In 10%N l /\
  read_line e maxn (Build_state [] done None None None fields) (l ++ NL) = Exit.
Proof.
  intros (Ht & Hf & Hh & Hd & Hw & _) Ef Eh Ed Hn.
  assert (W : field e (wname r)).
  { unfold wname. destruct (r_wali r); [|apply field_plain; reflexivity]. destruct (Hw eq_refl) as (w & -> & Fw). auto. }
  assert (NM : forall s x, named e s -> s = Some x -> field e x) by (intros s x (y & -> & H1 & H2) E; injection E as <-; auto).
  pose proof (sys_atts_ok e r f h d (wname r) Ht (NM _ _ Hf Ef) (NM _ _ Hh Eh) (NM _ _ Hd Ed) W) as HA.
  exists (B "<" ++ B "SYSTEM" ++ tagtext (sys_atts r f h d (wname r)) ++ B ">"). split; [rewrite <- !app_assoc; reflexivity|]. split.
  - repeat first [apply (tagtext_no10 e); exact HA | apply no10_const; reflexivity | apply no10_app].
  - rewrite <- !app_assoc. change (B "<" ++ B "SYSTEM" ++ tagtext (sys_atts r f h d (wname r)) ++ B ">" ++ NL)
      with (60%N :: 83%N :: B "YSTEM" ++ tagtext (sys_atts r f h d (wname r)) ++ B ">" ++ NL). rewrite rl_begin by discriminate.
    change (60%N :: 83%N :: B "YSTEM" ++ tagtext (sys_atts r f h d (wname r)) ++ B ">" ++ NL)
      with (B "<" ++ B "SYSTEM" ++ tagtext (sys_atts r f h d (wname r)) ++ B ">" ++ NL).
    unfold begin_tag. cbn [s_tags s_done s_cur s_spk s_path s_fields]. unfold sys_atts in *. rewrite add_tag_ok; [|cbn; lia|reflexivity|exact HA|cbn; lia]. cbn [rbind].
    rewrite !teqB by reflexivity. cbn [rbind String.eqb Ascii.eqb Bool.eqb]. rewrite app_nil_r. destruct (Nat.leb_spec maxn (length done)); [reflexivity|lia].
Qed.
Lemma load_too_many e maxn l : Forall (report_ok e) l -> maxn < length l -> exists t, dumps sgml_report l = Ok t /\ load e maxn t = Exit.
Proof.
  intros HL Hn. rewrite <- (firstn_skipn maxn l) in *. set (a := firstn maxn l) in *. 
  assert (La : length a = maxn) by (subst a; apply firstn_length_le; rewrite app_length, firstn_length, skipn_length in Hn; lia).
  destruct (skipn maxn l) as [|r b] eqn:EB.
  { rewrite app_nil_r in Hn. lia. }
  apply Forall_app in HL as [HA HB]. inversion HB as [|? ? Hr Hb]; subst x l0.
  destruct (run_systems e maxn a [] [] HA) as (t & f1 & E1 & R1); [cbn; lia|].
  destruct (run_systems e (length b) b [] [] Hb) as (u & f2 & E2 & _); [cbn; lia|].
  destruct (run_system e 1 [] r [] Hr) as (v & f3 & E3 & _); [cbn; lia|].
  exists (t ++ v ++ u). split.
  { apply dumps_app; [exact E1|]. cbn [dumps]. rewrite E3. cbn [rbind]. rewrite E2. reflexivity. }
  pose proof Hr as (_ & (f & Ef & _) & (h & Eh & _) & (d & Ed & _) & Hw & _).
  destruct (sys_tag_exit e maxn (map report_read a) r f h d f1 Hr Ef Eh Ed) as (ln & EL & N & EX); [rewrite map_length; lia|].
  assert (V : exists q, v = (ln ++ NL) ++ q).
  { rewrite <- EL. revert E3. unfold sgml_report, dump. rewrite Ef, Eh, Ed. cbn [text_of rbind].
    assert (EW : (if r_wali r then text_of (r_wfile r) else Ok []) = Ok (wname r)).
    { unfold wname. destruct (r_wali r); [|reflexivity]. destruct (Hw eq_refl) as (w & -> & _). reflexivity. }
    rewrite EW. cbn [rbind]. destruct (grps_text (B ":") (B ",") (r_grps r)) as [g| | |]; try discriminate. cbn [rbind]. intros E. apply ok_inj in E. rewrite <- E.
    exists (concat (map (label_text "LABEL") (r_labels r)) ++ concat (map (label_text "CATEGORY") (r_cats r)) ++ g ++ B "</SYSTEM>" ++ NL).
    unfold sys_atts, tagtext. cbn [map concat fst snd]. rewrite app_nil_r, <- !app_assoc. reflexivity. }
  destruct V as (q & ->). unfold load. rewrite <- !app_assoc in *.
  rewrite (load_exit e maxn t ln _ _ _ _ R1 N EX) by (rewrite <- app_length; lia). reflexivity.
Qed.

(** ** The report sent to another program *)
Lemma entry_piped e fl x : entry_ok e x -> exists y, entry_text fl NL x = Ok (letter (en_ev x) ++ NL ++ y) /\ read_ev (nth 0 (letter (en_ev x)) 0%N) = Some (en_ev x) /\ length (letter (en_ev x)) = 1.
Proof.
  intros HX. unfold entry_text, entry_head. unfold entry_ok in HX.
  assert (W : forall w, side_ok e w -> word_text w = Ok (shown_side w)).
  { intros w (y & -> & Hy). exact (word_text_ok e y Hy). }
  assert (AT : forall (on absent : bool) w f, (absent = false -> side_ok e w) -> exists z, aux_text NL on absent w f = Ok z).
  { intros on absent w f Hw. unfold aux_text. destruct on; [|eexists; reflexivity]. destruct absent; [eexists; reflexivity|]. destruct (Hw eq_refl) as (y & -> & _). eexists; reflexivity. }
  destruct (en_ev x) eqn:EV; try contradiction; cbn [ev_eqb].
  all: try match type of HX with _ /\ _ => destruct HX as [HA HB] end.
  all: rewrite ?W by assumption.
  all: cbn [rbind].
  all: repeat match goal with |- context [aux_text NL ?on ?ab ?w ?f] =>
         let z := fresh "z" in let E := fresh "E" in
         destruct (AT on ab w f) as (z & E); [intros; assumption || discriminate|]; rewrite E; cbn [rbind] end.
  all: eexists; (split; [rewrite <- !app_assoc; reflexivity|split; reflexivity]).
Qed.
Lemma entries_piped e fl l : Forall (entry_ok e) l -> exists t, entries_text fl NL NL l = Ok t /\
  match l with [] => t = [] | x :: _ => exists y, t = letter (en_ev x) ++ NL ++ y end.
Proof.
  intros H. induction H as [|x l Hx Hl IH]; [exists []; split; reflexivity|]. destruct (entry_piped e fl x Hx) as (y & E & _). destruct l as [|x2 l].
  - exists (letter (en_ev x) ++ NL ++ y). split; [exact E|]. exists y. reflexivity.
  - destruct IH as (t & Et & _). eexists. split.
    + change (entries_text fl NL NL (x :: x2 :: l)) with
        (let* t := entry_text fl NL x in let* u := entries_text fl NL NL (x2 :: l) in Ok (t ++ NL ++ u)).
      rewrite E. cbn [rbind]. rewrite Et. reflexivity.
    + exists (y ++ NL ++ t). rewrite <- !app_assoc. reflexivity.
Qed.
Lemma paths_piped e l : Forall (path_ok e) l -> exists t, paths_text NL NL l = Ok t.
Proof.
  intros H. induction H as [|p l (_ & _ & _ & _ & HE) Hl (t & IH)]; [exists []; reflexivity|]. destruct (entries_piped e (pa_flags p) (pa_set p) HE) as (d & E & _).
  cbn [paths_text]. unfold path_text. rewrite E. cbn [rbind]. rewrite IH. eexists. reflexivity.
Qed.
Lemma grps_piped e l : Forall (fun g => field e (fst g) /\ Forall (path_ok e) (snd g)) l -> exists t, grps_text NL NL l = Ok t.
Proof.
  intros H. induction H as [|[n ps] l [_ HP] Hl (t & IH)]; [exists []; reflexivity|]. destruct (paths_piped e ps HP) as (u & E).
  cbn [grps_text]. rewrite E. cbn [rbind]. rewrite IH. eexists. reflexivity.
Qed.
(** without words the two reports are the same *)
Definition no_words (p : rpath) : Prop := pa_set p = [].
Lemma paths_same l : Forall no_words l -> paths_text NL NL l = paths_text (B ":") (B ",") l.
Proof. intros H. induction H as [|p l Hp Hl IH]; [reflexivity|]. cbn [paths_text]. unfold path_text. rewrite Hp, IH. reflexivity. Qed.
Lemma grps_same l : Forall (fun g : str * list rpath => Forall no_words (snd g)) l -> grps_text NL NL l = grps_text (B ":") (B ",") l.
Proof. intros H. induction H as [|[n ps] l Hp Hl IH]; [reflexivity|]. cbn [grps_text snd] in *. rewrite paths_same, IH by exact Hp. reflexivity. Qed.
Lemma paths_text_app tsep asep a b x y : paths_text tsep asep a = Ok x -> paths_text tsep asep b = Ok y -> paths_text tsep asep (a ++ b) = Ok (x ++ y).
Proof.
  revert x. induction a as [|p a IH]; intros x Ha Hb; [injection Ha as <-; exact Hb|]. cbn [paths_text app] in *. destruct (path_text tsep asep p) as [t| | |]; try discriminate. cbn [rbind] in *.
  destruct (paths_text tsep asep a) as [u| | |]; try discriminate. cbn [rbind] in *. apply ok_inj in Ha; subst x. rewrite (IH u) by auto. cbn [rbind]. rewrite app_assoc. reflexivity.
Qed.
Lemma grps_text_app tsep asep a b x y : grps_text tsep asep a = Ok x -> grps_text tsep asep b = Ok y -> grps_text tsep asep (a ++ b) = Ok (x ++ y).
Proof.
  revert x. induction a as [|[n ps] a IH]; intros x Ha Hb; [injection Ha as <-; exact Hb|]. cbn [grps_text app] in *. destruct (paths_text tsep asep ps) as [t| | |]; try discriminate. cbn [rbind] in *.
  destruct (grps_text tsep asep a) as [u| | |]; try discriminate. cbn [rbind] in *. apply ok_inj in Ha; subst x. rewrite (IH u) by auto. cbn [rbind]. rewrite <- !app_assoc. reflexivity.
Qed.
Lemma first_split {A} (P : A -> Prop) l : (forall x, {P x} + {~ P x}) -> (exists x, In x l /\ ~ P x) -> exists a x b, l = a ++ x :: b /\ Forall P a /\ ~ P x.
Proof.
  intros D. induction l as [|y l IH]; intros (x & I & N); [destruct I|]. destruct (D y) as [Py|Ny].
  - destruct I as [->|I]; [contradiction|]. destruct IH as (a & z & b & -> & HA & Nz); [exists x; auto|]. exists (y :: a), z, b. repeat split; auto.
  - exists [], y, l. repeat split; auto.
Qed.
Lemma no_words_dec p : {no_words p} + {~ no_words p}.
Proof. unfold no_words. destruct (pa_set p); [left; reflexivity|right; discriminate]. Qed.
(** the letter of an entry alone on its line *)
Lemma letter_line e maxn tags done cur i o fields v : read_ev (nth 0 (letter v) 0%N) = Some v ->
  read_line e maxn (Build_state tags done cur i (Some o) fields) (letter v ++ NL) = Exit.
Proof.
  intros H. unfold read_line.
  assert (Q : exists c, letter v = [c] /\ (0 < c < 128)%N /\ c <> 60%N /\ c <> 34%N /\ in_set sep c = false).
  { destruct v; cbn; eexists; (split; [reflexivity|]); (split; [lia|]); repeat split; discriminate || reflexivity. }
  destruct Q as (c & EC & Hc & N60 & N34 & NS). rewrite EC in *. cbn [nth] in H. unfold cstr at 1. cbn [app rd rbind]. destruct (N.eqb_spec c 60); [contradiction|].
  assert (RD : forall f, read_data (S f) e (cstr ([c] ++ NL)) (token_buffer ([c] ++ NL)) fields o = Exit).
  { intros f. cbn [read_data]. change (B ":" ++ NL) with sep. change (cstr ([c] ++ NL)) with ([c] ++ 10%N :: [0%N]).
    rewrite strqtok_ok; [| |exists c, []; auto|reflexivity|discriminate|reflexivity|cbn; lia].
    - cbn [rbind]. change (token_buffer ([c] ++ NL)) with (repeat 0%N 100). unfold read_entry. cbn [app rd rbind length skipn]. rewrite H. destruct v; cbn; reflexivity.
    - apply qtext_plain. cbn [forallb]. unfold plain. rewrite andb_true_r, !andb_true_iff, !negb_true_iff. repeat split; try (apply N.ltb_lt; lia); [apply N.eqb_neq; exact N34|exact NS]. }
  cbn [s_path s_fields]. rewrite RD. reflexivity.
Qed.
Lemma load_piped e maxn r : report_ok e r -> 1 <= maxn -> (exists g p, In g (r_grps r) /\ In p (snd g) /\ pa_set p <> []) ->
  exists t, piped_report r = Ok t /\ load e maxn t = Exit.
Proof.
  intros HR Hn (g0 & p0 & Ig & Ip & Np). pose proof HR as (Ht & (f & Ef & _) & (h & Eh & _) & (d & Ed & _) & Hw & HL & NL1 & HC & NL2 & NG & HG).
  destruct (first_split (fun g : str * list rpath => Forall no_words (snd g)) (r_grps r)) as (ga & [n ps] & gb & EG & HA & NP).
  { intros g. apply Forall_dec. exact no_words_dec. }
  { exists g0. split; [exact Ig|]. intros F. rewrite Forall_forall in F. exact (Np (F p0 Ip)). }
  cbn [snd] in NP. destruct (first_split no_words ps no_words_dec) as (pa & p & pb & EP & HPA & NPP).
  { apply neg_Forall_Exists_neg in NP; [|exact no_words_dec]. apply Exists_exists in NP. exact NP. }
  rewrite EG in NG, HG. apply Forall_app in HG as [HGA HG]. inversion HG as [|? ? [Fn HPS] HGB]; subst x l. cbn [fst snd] in Fn, HPS.
  pose proof HPS as HPS0. rewrite EP in HPS. apply Forall_app in HPS as [HPa HPb]. inversion HPb as [|? ? HP HPb']; subst x l.
  set (S0 := (B "SYSTEM", pairs (sys_atts r f h d (wname r)))).
  set (r0 := with_labels (opened_sys r) (r_labels r) (r_cats r)).
  assert (NGA : NoDup (map fst ga) /\ ~ In n (map fst ga)).
  { rewrite map_app in NG. cbn [map fst] in NG. apply NoDup_remove in NG as [NG1 NG2]. split.
    - clear -NG1. induction (map fst ga) as [|a l IH]; [constructor|]. inversion NG1; subst. constructor; [intro I; apply H1; apply in_or_app; left; exact I|apply IH; assumption].
    - intro I. apply NG2. apply in_or_app. left. exact I. }
  destruct NGA as [NGA NIn].
  destruct (run_grps e maxn [S0] [] r0 ga ltac:(cbn; lia) [] [] None NGA HGA eq_refl) as (tg & f1 & E1 & R1). cbn [app] in R1.
  set (ga' := map (fun g => (fst g, map path_read (snd g))) ga) in *.
  destruct (run_paths e maxn ((B "SPEAKER", pairs [("id"%string, n)]) :: [S0]) [] r0 ga' n pa ltac:(cbn; lia) HPa [] f1) as (tp & f2 & E2 & R2). cbn [app] in R2.
  pose proof HP as (_ & _ & _ & _ & HE). destruct (entries_piped e (pa_flags p) (pa_set p) HE) as (te & E3 & F3).
  destruct (paths_piped e pb HPb') as (tpb & E4). destruct (grps_piped e gb HGB) as (tgb & E5).
  destruct (pa_set p) as [|x0 xs] eqn:EPS; [exfalso; apply NPP; exact EPS|]. destruct F3 as (y & F3).
  inversion HE as [|? ? Hx0 _]; subst x l. destruct (entry_piped e (pa_flags p) x0 Hx0) as (_ & _ & RE & _).
  eexists. split.
  { unfold piped_report, dump. rewrite Ef, Eh, Ed. cbn [text_of rbind].
    assert (EW : (if r_wali r then text_of (r_wfile r) else Ok []) = Ok (wname r)).
    { unfold wname. destruct (r_wali r); [|reflexivity]. destruct (Hw eq_refl) as (w & -> & _). reflexivity. }
    rewrite EW. cbn [rbind]. rewrite EG.
    rewrite (grps_text_app NL NL ga ((n, ps) :: gb) tg (B "<SPEAKER" ++ attr "id" n ++ B ">" ++ NL ++ (tp ++ (path_tag p ++ te ++ NL ++ B "</PATH>" ++ NL) ++ tpb) ++ B "</SPEAKER>" ++ NL ++ tgb)).
    - cbn [rbind]. reflexivity.
    - rewrite grps_same by exact HA. exact E1.
    - cbn [grps_text]. rewrite EP. rewrite (paths_text_app NL NL pa (p :: pb) tp ((path_tag p ++ te ++ NL ++ B "</PATH>" ++ NL) ++ tpb)).
      + cbn [rbind]. rewrite E5. reflexivity.
      + rewrite paths_same by exact HPA. exact E2.
      + cbn [paths_text]. unfold path_text. rewrite EPS, E3. cbn [rbind]. rewrite E4. reflexivity. }
  assert (RS : Runs e maxn (Build_state [] [] None None None [])
    ((B "<" ++ B "SYSTEM" ++ tagtext (sys_atts r f h d (wname r)) ++ B ">" ++ NL)
         ++ concat (map (label_text "LABEL") (r_labels r)) ++ concat (map (label_text "CATEGORY") (r_cats r)) ++ tg
         ++ (B "<" ++ B "SPEAKER" ++ tagtext [("id"%string, n)] ++ B ">" ++ NL) ++ tp ++ path_tag p)
    (Build_state ((B "PATH", pairs (path_atts p)) :: (B "SPEAKER", pairs [("id"%string, n)]) :: [S0]) [] (Some (with_grps r0 (ga' ++ [(n, map path_read pa)]))) (Some (length ga'))
      (Some {| o_path := opened p []; o_max := room (length (pa_set p)) |}) (fields_after (pa_flags p) f2))).
  { eapply Runs_app; [apply run_sys_tag; try assumption; cbn; lia|]. fold S0.
    eapply Runs_app; [apply run_labels; [cbn; lia|exact HL|exact NL1|constructor]|]. cbn [app].
    eapply Runs_app; [apply run_cats; [cbn; lia|exact HC|exact NL2|constructor]|]. cbn [app]. fold r0.
    change r0 with (with_grps r0 []) at 1.
    eapply Runs_app; [exact R1|].
    eapply Runs_app; [|eapply Runs_app; [exact R2|apply run_path_tag; [exact HP|cbn; lia]]].
    apply tag_line; [reflexivity|discriminate|constructor; [split; [reflexivity|exact Fn]|constructor]|cbn; lia|cbn; lia|].
    unfold begin_tag. cbn [s_tags s_done s_cur s_spk s_path s_fields].
    rewrite add_tag_ok; [|cbn; lia|reflexivity|constructor; [split; [reflexivity|exact Fn]|constructor]|cbn; lia]. cbn [rbind].
    rewrite !teqB by reflexivity. cbn [rbind String.eqb Ascii.eqb Bool.eqb].
    rewrite (get_attrib_ok e [("id"%string, n)] "id"); [|constructor; [split; [reflexivity|exact Fn]|constructor]|reflexivity]. cbn [rbind lk dflt String.eqb Ascii.eqb Bool.eqb].
    unfold get_grp. cbn [r_grps with_grps]. rewrite find_grp_none; [reflexivity|].
    subst ga'. rewrite map_map. cbn [fst]. exact NIn. }
  match goal with |- load e maxn ?x = Exit => match type of RS with Runs _ _ _ ?q _ =>
    assert (EX : exists z, x = q ++ letter (en_ev x0) ++ NL ++ z) end end.
  { rewrite F3. exists (y ++ NL ++ B "</PATH>" ++ NL ++ tpb ++ B "</SPEAKER>" ++ NL ++ tgb ++ B "</SYSTEM>" ++ NL). unfold sys_atts, tagtext. cbn [map concat fst snd]. rewrite !app_nil_r, <- !app_assoc. reflexivity. }
  destruct EX as (z & EX). rewrite EX. unfold load.
  rewrite (load_exit e maxn _ (letter (en_ev x0)) z _ _ _ RS); [reflexivity| | |].
  - destruct (en_ev x0); cbn; intuition discriminate.
  - apply letter_line. exact RE.
  - rewrite !app_length. lia.
Qed.
