(** The operation on the words. *)
From Coq Require Import List NArith ZArith Arith Bool Lia.
From Verif Require Import Base Net_Model Net_Spec Net_Proofs1 Net_Proofs2 Merge_Model Merge_Spec Merge_Proofs3 Text_Model Text_Spec Text_Proofs1 Word_Model Word_Spec Word_Proofs Case_Model
  Anet_Model Anet_Spec Anet_Proofs3 Anet_Proofs6 Sep_Model Sep_Spec Sep_Proofs Sep_Thm Cnet_Model Cnet_Spec Cnet_Proofs1 Cnet_Proofs2 Cnet_Proofs3.
Import ListNotations.
Local Open Scope res_scope.

Lemma strcmp_buf e m s t : holds m s -> well_formed e s -> well_formed e t -> exists z, strcmp e m (cstr t) = Ok z /\ (z = 0%Z <-> s = t).
Proof.
  intros Hm Hs Ht. pose proof (well_formed_holds e t Ht) as Ht'. destruct Hs as (cs & Cs). destruct Ht as (ds & Cd).
  exists (lex ccmp cs ds). unfold strcmp. rewrite (strccmp_lex e _ _ s t cs ds) by (assumption || lia). split; [reflexivity|].
  destruct good_chars as (G1 & G2 & G3 & G4). split.
  - intros E. apply G3 in E; auto. destruct Cs as (-> & _), Cd as (-> & _). subst. reflexivity.
  - intros ->. apply G3; auto. destruct Cs as (Es & Fs), Cd as (Ed & Fd). apply (chars_inj e); try assumption. congruence.
Qed.
Lemma pieces_unique e p na dh t ps ps' : pieces e p na dh t ps -> pieces e p na dh t ps' -> ps = ps'.
Proof.
  intros (cs & us & (E1 & F1) & U1 & ->) (cs' & us' & (E2 & F2) & U2 & ->).
  assert (cs = cs') by (apply (chars_inj e); try assumption; congruence). subst cs'.
  destruct (C86_units p cs) as (u & _ & _ & UU). rewrite (UU us U1), (UU us' U2). reflexivity.
Qed.
Lemma spelled_unique e p na dh share w ws ws' : spelled e p na dh share w ws -> spelled e p na dh share w ws' -> ws = ws'.
Proof.
  unfold spelled. destruct (Nat.leb (length (w_value w)) 1); [congruence|]. intros (ps & P & ->) (ps' & P' & ->). rewrite (pieces_unique e p na dh _ ps ps' P P'). reflexivity.
Qed.
Lemma join_blank ps : ~ In 32%N (join ps) -> ps <> [] -> ps = [join ps].
Proof.
  intros H NE. destruct ps as [|x [|y r]]; [congruence|reflexivity|]. exfalso. apply H. cbn [join]. apply in_app_iff. right. left. reflexivity.
Qed.

Lemma concat_twice (l : list (list (list N))) : concat (map (@concat N) l) = concat (concat l).
Proof. induction l as [|x l IH]; [reflexivity|]. cbn [map concat]. rewrite concat_app, IH. reflexivity. Qed.
Lemma kept_length dh us : length (concat (kept dh us)) <= length (concat us).
Proof.
  induction us as [|u us IH]; [cbn; lia|]. unfold kept in *. cbn [filter]. destruct (negb (dh && is_hyphen u)); cbn [concat]; rewrite ?app_length; lia.
Qed.

Section Op.
Variable e : enc.
Variable p : profile.
Variables na dh : bool.
Variable junk : N.
Variable share : Z -> nat -> Z.
Variable free : nat.
Variable fuel : nat.
Hypothesis GU : p = Guarani -> e = GB \/ e = UTF8.
Let op := expand_chars e p na dh junk share (S free) fuel.
Definition room (buf : list N) : Prop := 10 <= length buf.

Lemma expand_short G x w buf : n_data G x = Some w -> length (w_value w) <= 1 -> op G x buf = Ok (G, buf).
Proof. intros D L. unfold op, expand_chars. rewrite D. rewrite (proj2 (Nat.leb_le _ _) L). reflexivity. Qed.
Lemma expand_idle w g : w_opt_del w = false -> piece_units e p na dh g -> w_value w = concat g -> idle op room (Some w).
Proof.
  intros OD PU EV G x buf R D. destruct (Nat.leb (length (w_value w)) 1) eqn:L.
  - exists buf. split; [apply (expand_short G x w); [exact D|apply Nat.leb_le, L]|exact R].
  - unfold op, expand_chars. rewrite D, L. unfold it. rewrite OD. cbn [negb rbind].
    destruct (separate_piece e p na dh GU junk g buf PU R) as (buf' & E & H & LL). rewrite EV, E. cbn [rbind]. rewrite (escaped_holds buf' (concat g) 59 H). cbn [rbind].
    destruct (piece_tok e p na dh GU g PU) as (tok & FT & _ & EC & _).
    assert (WF : well_formed e (concat g)). { exists tok. split; [symmetry; exact EC|]. eapply Forall_impl; [|exact FT]. intros c Hc. apply Hc. }
    destruct (strcmp_buf e buf' (concat g) (concat g) H WF WF) as (z & EZ & HZ). rewrite EZ. cbn [rbind]. rewrite (proj2 HZ eq_refl). cbn [Z.eqb].
    exists buf'. split; [reflexivity|]. unfold room in *. lia.
Qed.

(** ** The times *)
Definition raw (t : list N) : word := new_word t 0 0 false false (-1000).
Definition with_dur (d : Z) (t : list N) : word := set_times (raw t) 0 0 d.
Definition timed (d b : Z) (t : list N) : word := set_times (raw t) b (d + b) d.
Fixpoint timeds (d b : Z) (ps : list (list N)) : list word := match ps with [] => [] | t :: r => timed d b t :: timeds d (b + d) r end.
Lemma fold_dur d ps : fold_op (set_duration d) (map raw ps) tt = Ok (map (with_dur d) ps, tt).
Proof. induction ps as [|t ps IH]; [reflexivity|]. cbn [map fold_op set_duration rbind]. rewrite IH. reflexivity. Qed.
Lemma fold_start d ps : forall b, exists b', fold_op set_start (map (with_dur d) ps) b = Ok (timeds d b ps, b').
Proof.
  induction ps as [|t ps IH]; intros b; [exists b; reflexivity|]. cbn [map fold_op]. unfold set_start at 1. cbn [with_dur set_times w_dur rbind].
  destruct (IH (b + d)%Z) as (b' & ->). cbn [rbind]. exists b'. reflexivity.
Qed.
Definition optional (w : word) : word :=
  {| w_value := 40%N :: w_value w ++ [41%N]; w_intern := Some (w_value w); w_opt_del := true; w_frag := w_frag w;
     w_t1 := w_t1 w; w_t2 := w_t2 w; w_dur := w_dur w; w_weight := w_weight w |}.
Definition in_parens (w : word) : word :=
  {| w_value := 40%N :: w_value w ++ [41%N]; w_intern := w_intern w; w_opt_del := w_opt_del w; w_frag := w_frag w;
     w_t1 := w_t1 w; w_t2 := w_t2 w; w_dur := w_dur w; w_weight := w_weight w |}.
Lemma fold_opt ws : fold_op set_opt_del ws tt = Ok (map in_parens ws, tt).
Proof. induction ws as [|w ws IH]; [reflexivity|]. cbn [map fold_op set_opt_del rbind]. rewrite IH. reflexivity. Qed.
Lemma fold_decode ws : fold_op decode_op (map in_parens ws) tt = Ok (map optional ws, tt).
Proof.
  induction ws as [|w ws IH]; [reflexivity|]. cbn [map fold_op]. unfold decode_op at 1, decode_opt_del. cbn [in_parens w_value w_frag w_t1 w_t2 w_dur w_weight].
  assert (E1 : last_byte (40%N :: w_value w ++ [41%N]) = Ok 41%N).
  { unfold last_byte, byte_at, cstr. cbn [length]. rewrite app_length. cbn [length]. replace (length (w_value w) + 1) with (S (length (w_value w))) by lia.
    cbn [app skipn]. rewrite <- app_assoc. rewrite skipn_app, Nat.sub_diag, skipn_all. reflexivity. }
  rewrite E1. cbn [rbind]. unfold byte_at at 1. cbn [cstr app skipn rd rbind].
  change ((41 =? 41)%N && (40 =? 40)%N) with true. cbn match. cbn [rbind]. rewrite IH. cbn [rbind]. unfold optional at 2. do 3 f_equal.
  f_equal. cbn [length]. rewrite app_length. cbn [length skipn]. replace (S (length (w_value w) + 1) - 2) with (length (w_value w)) by lia.
  rewrite firstn_app, Nat.sub_diag, firstn_all. cbn [firstn]. rewrite app_nil_r. reflexivity.
Qed.
Lemma timeds_words w d : w_opt_del w = false -> forall ps i, timeds d (w_t1 w + Z.of_nat i * d) ps = piece_words w d i ps.
Proof.
  intros OD. induction ps as [|t ps IH]; intros i; [reflexivity|]. cbn [timeds piece_words]. f_equal.
  - unfold timed, piece_word, set_times, raw. rewrite OD. cbn. f_equal. lia.
  - rewrite <- IH. f_equal. lia.
Qed.
Lemma optional_words w d : w_opt_del w = true -> forall ps i, map optional (timeds d (w_t1 w + Z.of_nat i * d) ps) = piece_words w d i ps.
Proof.
  intros OD. induction ps as [|t ps IH]; intros i; [reflexivity|]. cbn [timeds map piece_words]. f_equal.
  - unfold optional, timed, piece_word, set_times, raw. rewrite OD. cbn. f_equal. lia.
  - rewrite <- IH. do 2 f_equal. lia.
Qed.
Lemma timeds_length d ps : forall b, length (timeds d b ps) = length ps.
Proof. induction ps as [|t ps IH]; intros b; [reflexivity|]. cbn. rewrite IH. reflexivity. Qed.
Lemma fill_ok w M ps : rowof' M (map raw ps) -> length ps + 1 < fuel ->
  exists M', fill_in share fuel w M = Ok M' /\ rowof' M' (piece_words w (share (w_dur w) (length ps)) 0 ps).
Proof.
  intros R L. unfold fill_in. rewrite (row_arcs M _ R), map_length. set (d := share (w_dur w) (length ps)).
  destruct (traverse_row _ M _ _ tt tt fuel R (fold_dur d ps)) as (M1 & E1 & R1 & _); [rewrite map_length; exact L|]. rewrite E1. cbn [rbind].
  destruct (fold_start d ps (w_t1 w)) as (b' & FS). destruct (traverse_row _ M1 _ _ (w_t1 w) b' fuel R1 FS) as (M2 & E2 & R2 & _); [rewrite map_length; exact L|]. rewrite E2. cbn [rbind].
  assert (B0 : w_t1 w = (w_t1 w + Z.of_nat 0 * d)%Z) by lia. rewrite B0 in R2.
  destruct (w_opt_del w) eqn:OD.
  - destruct (traverse_row _ M2 _ _ tt tt fuel R2 (fold_opt _)) as (M3 & E3 & R3 & _); [rewrite timeds_length; exact L|]. rewrite E3. cbn [rbind].
    destruct (traverse_row _ M3 _ _ tt tt fuel R3 (fold_decode _)) as (M4 & E4 & R4 & _); [rewrite map_length, timeds_length; exact L|]. rewrite E4. cbn [rbind].
    exists M4. split; [reflexivity|]. rewrite (optional_words w d OD) in R4. exact R4.
  - exists M2. split; [reflexivity|]. rewrite (timeds_words w d OD) in R2. exact R2.
Qed.

(** ** A word that is not short *)
Lemma has_brace_no v : ~ In 123%N v -> has_brace v = false.
Proof. intros H. unfold has_brace. apply not_true_is_false. intros E. apply existsb_exists in E. destruct E as (b & I & E). apply N.eqb_eq in E. subst b. contradiction. Qed.
Lemma starless_sub t b : In b (starless t) -> In b t.
Proof.
  unfold starless. destruct t as [|x [|y t]]; auto. destruct (last (x :: y :: t) 0 =? 42)%N; auto. intros I.
  rewrite (app_removelast_last (l := x :: y :: t) 0%N) by discriminate. apply in_app_iff. left. exact I.
Qed.
Lemma expand_long w cs us : chars_of e (text_of w) cs -> Forall letter cs -> units p cs us -> kept dh us <> [] -> length (text_of w) < MAXSTRING ->
  (w_opt_del w = true -> w_intern w = Some (text_of w) /\ w_value w = 40%N :: text_of w ++ [41%N]) -> 1 < length (w_value w) -> MAXSTRING + 1 < fuel ->
  let ps := map (@concat N) (runs e na (kept dh us)) in
  exists gs, Forall (piece_units e p na dh) gs /\ ps = map (@concat N) gs /\ ps <> [] /\
  forall G x buf, n_data G x = Some w -> room buf -> exists buf', room buf' /\
    if list_eq_dec (list_eq_dec N.eq_dec) ps [w_value w] then op G x buf = Ok (G, buf')
    else exists M, rowof' M (piece_words w (share (w_dur w) (length ps)) 0 ps) /\ op G x buf = (let* G' := replace_arc G x M in Ok (G', buf')).
Proof.
  intros CO FL U NK LT OV LV LF ps.
  assert (FC : Forall (lchar e) cs). { destruct CO as [_ HC]. clear - FL HC. induction HC as [|c l H HC IH]; constructor; [split; [exact H|exact (Forall_inv FL)]|apply IH, (Forall_inv_tail FL)]. }
  pose proof (runs_units e p na dh GU cs us U FC) as RU. exists (runs e na (kept dh us)). split; [exact RU|]. split; [reflexivity|].
  assert (NP : ps <> []). { unfold ps. destruct (kept dh us) as [|y r]; [congruence|]. destruct (runs_head e na y r) as (g & gs & ->). discriminate. }
  split; [exact NP|]. intros G x buf D R.
  unfold op, expand_chars. rewrite D. replace (Nat.leb (length (w_value w)) 1) with false by (symmetry; apply Nat.leb_gt; exact LV).
  assert (IT : it w = Ok (text_of w)). { unfold it, text_of. destruct (w_opt_del w) eqn:OD; [|reflexivity]. destruct (OV eq_refl) as [-> _]. reflexivity. }
  rewrite IT. cbn [rbind].
  assert (WT : well_formed e (text_of w)) by (exists cs; exact CO).
  destruct (C86_separated e p na dh junk (cstr (text_of w)) (text_of w) cs us buf (well_formed_holds e _ WT) CO U GU R) as (buf' & E & H & LL). rewrite E. cbn [rbind].
  rewrite spread_runs in H. fold ps in H.
  assert (TS : exists ts, ps = map (@concat N) ts /\ Forall (Forall (lchar e)) ts /\ Forall (fun t => t <> []) ts).
  { unfold ps. clear - RU GU. induction RU as [|g gs H RU (ts & E & F1 & F2)]; [exists []; repeat constructor|]. destruct (piece_tok e p na dh GU g H) as (tok & FT & NE & EC & _).
    exists (tok :: ts). cbn [map]. rewrite E, EC. split; [reflexivity|]. split; constructor; assumption. }
  destruct TS as (ts & EP & F1 & F2).
  assert (WJ : chars_of e (join ps) (joinc ts)) by (rewrite EP; split; [symmetry; apply join_chars|apply joinc_chars; exact F1]).
  rewrite (escaped_holds buf' _ 59 H). cbn [rbind].
  assert (TX : Forall (lchar e) cs /\ text_of w = concat cs) by (split; [exact FC|apply CO]). destruct TX as [_ TX].
  assert (WV : well_formed e (w_value w) /\ ~ In 32%N (w_value w)).
  { destruct (w_opt_del w) eqn:OD.
    - destruct (OV eq_refl) as [_ ->]. split.
      + exists ([40%N] :: cs ++ [[41%N]]). split; [cbn [concat app]; rewrite concat_app, <- TX; reflexivity|]. constructor; [exists 40%N, []; split; [reflexivity|split; [destruct e; cbn; lia|repeat constructor]]|].
        apply Forall_app. split; [apply CO|]. constructor; [exists 41%N, []; split; [reflexivity|split; [destruct e; cbn; lia|repeat constructor]]|constructor].
      + intros [E0|I]; [discriminate|]. apply in_app_iff in I. destruct I as [I|[E0|[]]]; [|discriminate]. rewrite TX in I. revert I. apply (lchars_no e); auto.
    - assert (EV : w_value w = text_of w) by (unfold text_of; rewrite OD; reflexivity). rewrite EV. split; [exact WT|]. rewrite TX. apply (lchars_no e); auto. }
  destruct WV as [WV NB].
  destruct (strcmp_buf e buf' (join ps) (w_value w) H (ex_intro _ _ WJ) WV) as (z & EZ & HZ). rewrite EZ. cbn [rbind].
  exists buf'. split; [unfold room in *; lia|]. destruct (list_eq_dec (list_eq_dec N.eq_dec) ps [w_value w]) as [EQ|NQ].
  - assert (z = 0%Z) by (apply HZ; rewrite EQ; reflexivity). subst z. reflexivity.
  - replace (z =? 0)%Z with false.
    2:{ symmetry. apply Z.eqb_neq. intros K. apply HZ in K. apply NQ. rewrite <- K. apply join_blank; [rewrite K; exact NB|exact NP]. }
    assert (N59 : ~ In 59%N (join ps)).
    { rewrite EP. clear - F1. induction F1 as [|t ts H F IH]; [intros []|]. cbn [map join]. destruct ts as [|t2 ts]; [apply (lchars_no e); auto|].
      intros I. apply in_app_iff in I. destruct I as [I|[I|I]]; [revert I; apply (lchars_no e); auto|discriminate|exact (IH I)]. }
    rewrite (esc_id _ N59). unfold cstr at 1. rewrite (proj1 WJ).
    assert (LP : Forall (fun t => length (concat t) <= length (text_of w)) ts /\ length ps <= length (text_of w)).
    { assert (LC : length (concat ps) <= length (text_of w)).
      { unfold ps. rewrite concat_twice, runs_concat. destruct (C86_units p cs) as (us' & U' & EU & UU). rewrite (UU us U) in *. rewrite TX, <- EU. apply kept_length. }
      rewrite EP in LC. rewrite EP, map_length. clear - LC F1 F2. revert LC. generalize (length (text_of w)). induction F1 as [|t ts H F IH]; intros n L; [split; [constructor|cbn; lia]|].
      cbn [map concat length] in *. rewrite app_length in L. inversion F2 as [|? ? NE F2']; subst.
      assert (1 <= length (concat t)). { destruct t as [|c t]; [congruence|]. pose proof (Forall_inv H) as ((l & r & -> & _) & _). cbn. lia. }
      destruct (IH F2' (length (concat (map (@concat N) ts))) (Nat.le_refl _)) as [I1 I2]. split; [|lia]. constructor; [lia|]. eapply Forall_impl; [|exact I1]. intros a Ha. cbn beta in Ha. lia. }
    destruct LP as [LP1 LP2].
    destruct (create_plain e free (joinc ts) ts (map raw ps) []) as (M & EM & RM).
    + apply (joinc_tokens e); try assumption. intros ->. apply NP. rewrite EP. reflexivity.
    + apply WJ.
    + apply Forall_forall. intros t I. split; [rewrite Forall_forall in LP1; specialize (LP1 t I); lia|]. intros (_ & t' & ->).
      rewrite Forall_forall in F1. apply (lchars_no e 123 _ (F1 _ I)); [auto|left; reflexivity].
    + rewrite EP. clear - F1 F2. induction F1 as [|t ts H F IH]; cbn [map]; constructor; [apply lchars_word; [exact H|exact (Forall_inv F2)]|apply IH, (Forall_inv_tail F2)].
    + rewrite EP. clear - F1. induction F1 as [|t ts H F IH]; cbn [map]; constructor; [|exact IH]. apply has_brace_no. intros I. unfold raw in I. rewrite starless_word in I. apply starless_sub in I. revert I. apply (lchars_no e); auto.
    + destruct ps; [congruence|discriminate].
    + rewrite EM. cbn [rbind]. destruct (fill_ok w M ps RM) as (M' & EF & RF); [lia|]. rewrite EF. cbn [rbind]. exists M'. split; [exact RF|reflexivity].
Qed.

(** ** The operation on an arc *)
Variable G0 : net word.
Definition says_of (x : nat) (d : list (option word)) : Prop := exists w ws, n_data G0 x = Some w /\ spelled e p na dh share w ws /\ d = map Some ws.
Lemma arc_ok x w : MAXSTRING + 1 < fuel -> n_data G0 x = Some w -> spellable e p dh w -> (w_opt_del w = true -> n_out G0 (n_from G0 x) = [x]) ->
  op_ok op room G0 says_of x.
Proof.
  intros LF D0 SP OD G s I W AX D. rewrite D0 in D.
  assert (ONE : forall ws, spelled e p na dh share w ws -> forall d, says_of x d <-> d = map Some ws).
  { intros ws H d. split; [|intros ->; exists w, ws; auto]. intros (w' & ws' & E' & H' & ->). rewrite D0 in E'. injection E' as <-. rewrite (spelled_unique e p na dh share w ws' ws H' H). reflexivity. }
  destruct (Nat.leb (length (w_value w)) 1) eqn:EL.
  - exists s. split; [exact I|]. right. left. split; [apply (expand_short G x w); [exact D|apply Nat.leb_le, EL]|]. rewrite D0. apply (ONE [w]). unfold spelled. rewrite EL. reflexivity.
  - apply Nat.leb_gt in EL. destruct SP as [SP|(cs & us & CO & FL & U & NK & LT & OV)]; [lia|].
    destruct (expand_long w cs us CO FL U NK LT OV EL LF) as (gs & FG & EG & NP & K). set (ps := map (@concat N) (runs e na (kept dh us))) in *.
    destruct (K G x s D I) as (s' & R' & E). exists s'. split; [exact R'|].
    assert (PI : pieces e p na dh (text_of w) ps) by (exists cs, us; auto).
    assert (SPL : spelled e p na dh share w (if list_eq_dec (list_eq_dec N.eq_dec) ps [w_value w] then [w] else piece_words w (share (w_dur w) (length ps)) 0 ps)).
    { unfold spelled. rewrite (proj2 (Nat.leb_gt _ _) EL). exists ps. auto. }
    pose proof (ONE _ SPL) as O. destruct (list_eq_dec (list_eq_dec N.eq_dec) ps [w_value w]) as [EQ|NQ].
    + right. left. split; [exact E|]. rewrite D0. exact O.
    + right. right. destruct E as (M & RM & E). pose proof RM as (WM & t & l & EM & _). destruct (replace_full G M x t W WM EM AX) as (G' & ER & _). rewrite ER in E. cbn [rbind] in E.
      exists M, G', t. split; [exact WM|]. split; [exact EM|]. split; [exact ER|]. split; [exact E|]. split; [intros d; rewrite (row_says M _ RM); apply O|].
      destruct ps as [|t0 ps'] eqn:EP; [congruence|]. cbn [piece_words] in RM. destruct (row_head M _ _ RM) as (y & EO & DY). rewrite EO. split; [cbn; lia|].
      destruct (w_opt_del w) eqn:ED; [left; apply OD; reflexivity|]. right. intros z [<-|[]]. rewrite DY.
      destruct gs as [|g gs]; [discriminate|]. cbn [map] in EG. injection EG as E0 _. destruct (piece_star e p na dh g (Forall_inv FG)) as (g' & PG & EG').
      apply (expand_idle _ g'); [cbn; exact ED|exact PG|]. cbn. rewrite ED, EG', E0. reflexivity.
Qed.
End Op.
