(** Lemmas for the lines of the statistics. *)
From Coq Require Import String List ZArith NArith Arith Bool QArith Lia Lqa Permutation Sorted.
From Verif Require Import Base Store_Model Sgml_Model Stats_Model Stats_Spec Stats_Proofs Stats_Thm Pad_Model Rep_Model Tab_Model Tab_Spec Tab_Proofs1 Tab_Proofs2 Tab_Proofs3 Tab_Proofs4.
Import ListNotations.
Local Open Scope res_scope.
Local Open Scope nat_scope.
Local Notation length := List.length.

Lemma perm_filter {A} (f : A -> bool) l l' : Permutation l l' -> Permutation (filter f l) (filter f l').
Proof.
  induction 1 as [|x l l' P IH|x y l|l1 l2 l3 P1 IH1 P2 IH2]; cbn [filter]; [constructor| | |exact (Permutation_trans IH1 IH2)].
  - destruct (f x); [constructor|]; exact IH.
  - destruct (f y), (f x); try apply Permutation_refl. apply perm_swap.
Qed.
Definition fit_values (l : list Q) (b : Q) : Prop := Forall (fun x => within x b) l.
Definition fit_spread (l : list Q) (b : Q) : Prop := l <> [] -> 2 <= length l /\ (sample_variance l <= b * b)%Q.
Definition shown_well (stat : nat -> list Q -> str -> Prop) (show : nat -> stats -> str) (OK : list Q -> Q -> Prop) : Prop :=
  forall p l l' s b k, compute l' = Some s -> Permutation l l' -> OK l (inject_Z b) -> (0 <= b)%Z -> (b * scale p + 1 < 2 ^ 31)%Z -> (b < 10 ^ Z.of_nat k)%Z -> 1 <= k ->
  stat p l (show p s) /\ length (show p s) <= k + 2 + p /\ (Forall (fun x => 0 <= x)%Q l -> length (show p s) <= k + 1 + p).
Lemma real_both junk p x y b k : (x == y)%Q -> within y (inject_Z b) -> (0 <= b)%Z -> (b * scale p + 1 < 2 ^ 31)%Z -> (b < 10 ^ Z.of_nat k)%Z -> 1 <= k ->
  shows p y (real junk p x) /\ length (real junk p x) <= k + 2 + p /\ ((0 <= y)%Q -> length (real junk p x) <= k + 1 + p).
Proof.
  intros E (W1 & W2) B R K K1. assert (WX : within x (inject_Z b)) by (split; rewrite E; assumption). destruct (real_length junk p x b k B WX R K K1) as (L1 & L2).
  split; [apply (shows_eq p x); [exact E|apply (real_shows junk p x b); assumption]|]. split; [exact L1|]. intros Y. apply L2. rewrite E. exact Y.
Qed.
Lemma zero_within b : (0 <= b)%Z -> within 0 (inject_Z b).
Proof. intros B. assert (0 <= inject_Z b)%Q by (change 0%Q with (inject_Z 0); rewrite <- Zle_Qle; exact B). split; lra. Qed.
Lemma mean_well junk : shown_well mean_of (mean junk) fit_values.
Proof.
  intros p l l' s b k C P F B R K K1. destruct (C21_order l l' P) as (s1 & s2 & C1 & C2 & _ & EM & _). rewrite C in C2. injection C2 as <-. unfold mean, mean_of. destruct l as [|x l].
  - apply Permutation_nil in P. subst l'. cbn in C. injection C as <-. cbn [st_mean]. destruct (real_both junk p 0 0 b k ltac:(reflexivity) (zero_within b B) B R K K1) as (A1 & A2 & A3). split; [exact A1|]. split; [exact A2|]. intros _. apply A3. lra.
  - destruct (C21_mean (x :: l) ltac:(discriminate)) as (s' & C' & _ & EA & _ & (lo & hi & I1 & I2 & L1 & L2 & _)). rewrite C1 in C'. injection C' as <-. unfold fit_values in F. rewrite Forall_forall in F. destruct (F lo I1) as (F1 & _). destruct (F hi I2) as (_ & F2).
    assert (W : within (average (x :: l)) (inject_Z b)) by (split; rewrite <- EA; lra).
    destruct (real_both junk p (st_mean s) (average (x :: l)) b k ltac:(rewrite <- EA; symmetry; exact EM) W B R K K1) as (A1 & A2 & A3). split; [exact A1|]. split; [exact A2|]. intros NN. apply A3. rewrite Forall_forall in NN. specialize (NN lo I1). rewrite <- EA. lra.
Qed.
Lemma median_well junk : shown_well median_of (median junk) fit_values.
Proof.
  intros p l l' s b k C P F B R K K1. destruct (C21_order l l' P) as (s1 & s2 & C1 & C2 & _ & _ & EM & _). rewrite C in C2. injection C2 as <-. unfold median, median_of. destruct l as [|x l].
  - apply Permutation_nil in P. subst l'. cbn in C. injection C as <-. cbn [st_median]. destruct (real_both junk p 0 0 b k ltac:(reflexivity) (zero_within b B) B R K K1) as (A1 & A2 & A3). split; [exact A1|]. split; [exact A2|]. intros _. apply A3. lra.
  - destruct (C21_median (x :: l) ltac:(discriminate)) as (s' & lo & hi & C' & _ & LM & UM & EA). rewrite C1 in C'. injection C' as <-. unfold fit_values in F. rewrite Forall_forall in F. destruct (F lo (proj1 LM)) as (F1 & F1'). destruct (F hi (proj1 UM)) as (F2 & F2').
    assert (EH : ((lo + hi) / 2 == (lo + hi) * (1 # 2))%Q) by reflexivity.
    assert (W : within ((lo + hi) / 2)%Q (inject_Z b)) by (split; rewrite EH; lra).
    destruct (real_both junk p (st_median s) ((lo + hi) / 2)%Q b k ltac:(rewrite <- EA; symmetry; exact EM) W B R K K1) as (A1 & A2 & A3). split; [exists ((lo + hi) / 2)%Q; split; [exists lo, hi; split; [exact LM|split; [exact UM|reflexivity]]|exact A1]|]. split; [exact A2|].
    intros NN. apply A3. rewrite Forall_forall in NN. pose proof (NN lo (proj1 LM)). pose proof (NN hi (proj1 UM)). rewrite EH. lra.
Qed.
Lemma deviation_well junk : shown_well deviation_of (deviation junk) fit_spread.
Proof.
  intros p l l' s b k C P F B R K K1. destruct (C21_order l l' P) as (s1 & s2 & C1 & C2 & _ & _ & _ & _ & EV). rewrite C in C2. injection C2 as <-. unfold deviation, deviation_of. pose proof (zero_within b B) as (_ & B0). destruct l as [|x l].
  - apply Permutation_nil in P. subst l'. cbn in C. injection C as <-. cbn [st_variance]. destruct (root_ok junk p 0 b k ltac:(lra) ltac:(nra) B R K K1) as ((z & Z0 & PZ & A & A') & L). split; [|lia].
    exists z. split; [|exact PZ]. cbv zeta in A, A'. assert (ZZ : z = 0%Z). { destruct (Z.eq_dec z 0) as [|NZ]; [assumption|]. specialize (A ltac:(lia)). assert (1 <= inject_Z z)%Q by (change 1%Q with (inject_Z 1); rewrite <- Zle_Qle; lia). exfalso. set (g := inject_Z z) in *. nra. }
    subst z. unfold nearest. cbv zeta. change (inject_Z 0) with 0%Q. split; intros _; split; lra.
  - destruct (F ltac:(discriminate)) as (L2 & SV). destruct (C21_variance (x :: l) L2) as (s' & v & C' & E1 & E2 & V0 & _). rewrite C1 in C'. injection C' as <-. rewrite E1 in EV. destruct (st_variance s) as [v'|]; [|contradiction].
    destruct (root_ok junk p v' b k ltac:(rewrite <- EV; exact V0) ltac:(rewrite <- EV, E2; exact SV) B R K K1) as (A & L). split; [|lia]. apply (shows_root_eq p v'); [rewrite <- EV; exact E2|exact A].
Qed.

Section Stats.
Variables (raw inc : bool) (junk : Z) (m : smap datas) (nce : str -> Q) (tnce : Q) (p : parts) (stat : nat -> list Q -> str -> Prop) (show : nat -> stats -> str) (OK : list Q -> Q -> Prop).
Lemma stat_row_ok label l : made raw inc junk m nce tnce p -> wide inc (p_w p) -> shown_well stat show OK -> (forall k s, solid (show k s)) -> length (bytes label) <= 7 ->
  Forall (fun v => OK (fst v) (snd v)) (all_values raw inc m nce) ->
  stat_line raw (p_w p) (starred (ds_of m)) label show (p_segs p) (p_refs p) (p_serr p) (p_pserr p) (p_cs p) (p_nces p) = Ok l -> stat_row raw inc m nce (bytes label) stat l.
Proof.
  intros M W SW SO LL OKS E. unfold stat_line in E. set (ds := ds_of m) in *. pose proof (m_cs _ _ _ _ _ _ _ M) as CS. fold ds in CS.
  unfold all_values in OKS. inversion OKS as [|? ? O1 OKS1]; subst. inversion OKS1 as [|? ? O2 OKS2]; subst. inversion OKS2 as [|? ? O3 OKS3]; subst. inversion OKS3 as [|? ? O4 O5]; subst. clear OKS OKS1 OKS2 OKS3. cbn [fst snd] in *.
  assert (NE : forall f, Forall (fun x => 0 <= x)%Q (every m f)) by (intros f; unfold every; apply Forall_map, Forall_forall; intros; apply q_pos).
  assert (PE : forall f, Permutation (every m f) (map (count f) ds)). { intros f. unfold every. rewrite <- (map_map snd (fun d => q (f d))). apply (Permutation_map (count f)), ds_perm. }
  assert (PS : Permutation (spoke m) (seen ds)) by (apply perm_filter, ds_perm).
  assert (S1 : stat 1 (every m d_segs) (show 1 (p_segs p)) /\ length (show 1 (p_segs p)) <= 5).
  { destruct (SW 1 _ _ _ 999%Z 3 (m_segs _ _ _ _ _ _ _ M) (PE d_segs) O1 ltac:(lia) eq_refl eq_refl ltac:(lia)) as (A & _ & B). split; [exact A|exact (B (NE _))]. }
  assert (S2 : stat 1 (every m d_refs) (show 1 (p_refs p)) /\ length (show 1 (p_refs p)) <= 6).
  { destruct (SW 1 _ _ _ 9999%Z 4 (m_refs _ _ _ _ _ _ _ M) (PE d_refs) O2 ltac:(lia) eq_refl eq_refl ltac:(lia)) as (A & _ & B). split; [exact A|exact (B (NE _))]. }
  assert (S3 : stat 1 (serrs raw m) (show 1 (if raw then p_serr p else p_pserr p)) /\ length (show 1 (if raw then p_serr p else p_pserr p)) <= 6).
  { assert (NS : Forall (fun x => 0 <= x)%Q (serrs raw m)) by (unfold serrs; apply Forall_map, Forall_forall; intros; destruct raw; [apply q_pos|apply ratio_pos]).
    assert (PC : Permutation (serrs raw m) (if raw then map (count d_segerrs) ds else map (percent d_segerrs d_segs) ds)).
    { destruct raw; [exact (PE d_segerrs)|]. unfold serrs. rewrite <- (map_map snd (fun d => ratio (d_segerrs d) (d_segs d))). apply (Permutation_map (percent d_segerrs d_segs)), ds_perm. }
    assert (CC : compute (if raw then map (count d_segerrs) ds else map (percent d_segerrs d_segs) ds) = Some (if raw then p_serr p else p_pserr p)).
    { pose proof (m_serr _ _ _ _ _ _ _ M) as A. pose proof (m_pserr _ _ _ _ _ _ _ M) as B. clear - A B. destruct raw; [exact A|exact B]. }
    destruct (SW 1 _ _ _ 9999%Z 4 CC PC O3 ltac:(lia) eq_refl eq_refl ltac:(lia)) as (A & _ & B). split; [exact A|exact (B NS)]. }
  assert (S4 : stat 3 (nces m nce) (show 3 (p_nces p)) /\ length (show 3 (p_nces p)) <= 9).
  { assert (PN : Permutation (nces m nce) (map (fun r => nce (fst r)) (filter (good_nce nce) (by_name m)))).
    { unfold nces. apply Permutation_map. rewrite (filter_ext _ (good_nce nce)); [apply perm_filter, by_name_perm|]. intros e. unfold good_nce, qabs_le. rewrite andb_assoc. reflexivity. }
    destruct (SW 3 _ _ _ 9999%Z 4 (m_nces _ _ _ _ _ _ _ M) PN O4 ltac:(lia) eq_refl eq_refl ltac:(lia)) as (A & B & _). split; [exact A|exact B]. }
  assert (VS : Forall2 (fun f s => stat 1 (values raw m f) s) (counts inc) (map (fun c => show 1 (if raw then c_seen c else c_pct c)) (p_cs p))
    /\ Forall (fun s => length s <= 6) (map (fun c => show 1 (if raw then c_seen c else c_pct c)) (p_cs p))).
  { assert (EA : values raw m errors = values raw m d_errors). { unfold values. apply map_ext. intros d. rewrite errors_eq. reflexivity. }
    assert (G : forall fs cs, Forall2 (column_ok junk ds) fs cs -> Forall (fun f => OK (values raw m f) 9999%Q) fs ->
       Forall2 (fun f s => stat 1 (values raw m f) s) fs (map (fun c => show 1 (if raw then c_seen c else c_pct c)) cs) /\ Forall (fun s => length s <= 6) (map (fun c => show 1 (if raw then c_seen c else c_pct c)) cs)).
    { induction 1 as [|f c fs cs CO F IH]; intros OO; cbn [map]; [split; constructor|]. inversion OO as [|? ? O OO']; subst. destruct (IH OO') as (I1 & I2). destruct CO as (_ & C1 & C2 & _).
      assert (NS : Forall (fun x => 0 <= x)%Q (values raw m f)) by (unfold values; apply Forall_map, Forall_forall; intros; destruct raw; [apply q_pos|apply ratio_pos]).
      assert (PC : Permutation (values raw m f) (if raw then map (count f) (seen ds) else map (percent f d_refs) (seen ds))).
      { unfold values. destruct raw; [apply (Permutation_map (count f)), PS|apply (Permutation_map (percent f d_refs)), PS]. }
      assert (CC : compute (if raw then map (count f) (seen ds) else map (percent f d_refs) (seen ds)) = Some (if raw then c_seen c else c_pct c)) by (clear - C1 C2; destruct raw; [exact C1|exact C2]).
      destruct (SW 1 _ _ _ 9999%Z 4 CC PC O ltac:(lia) eq_refl eq_refl ltac:(lia)) as (A & _ & B). split; constructor; [exact A|exact I1|exact (B NS)|exact I2]. }
    assert (OF : Forall (fun f => OK (values raw m f) 9999%Q) (shown inc)).
    { clear - O5 EA. apply (proj1 (Forall_map (fun f => (values raw m f, 9999%Q)) _ (counts inc))) in O5. cbn [fst snd] in O5. unfold counts in O5. unfold shown. destruct inc; cbn [app] in *; repeat match goal with H : Forall _ (_ :: _) |- _ => inversion H; subst; clear H end; repeat (constructor; try assumption); rewrite <- EA; assumption. }
    destruct (G _ _ CS OF) as (G1 & G2). split; [|exact G2]. clear - G1 EA.
    unfold counts, shown in *. destruct inc; cbn [app] in *; repeat match goal with H : Forall2 _ (_ :: _) _ |- _ => inversion H; subst; clear H end; match goal with H : Forall2 _ [] _ |- _ => inversion H; subst; clear H end; repeat (constructor; try assumption); rewrite EA; assumption. }
  set (mark := if starred ds then bytes "+" else []) in *.
  assert (MK : mark_ok mark mark). { unfold mark. left. split; [reflexivity|]. destruct (starred ds); repeat constructor; discriminate. }
  destruct (line_ok inc (p_w p) "middle" (bytes label) (show 1 (p_segs p)) (show 1 (p_refs p)) (map (fun c => show 1 (if raw then c_seen c else c_pct c)) (p_cs p)) mark mark (show 1 (if raw then p_serr p else p_pserr p)) (show 3 (p_nces p))
    W ltac:(cbn; tauto) ltac:(rewrite map_length; eapply cols_length; exact M)) as (l' & E' & _ & R).
  assert (EL : Ok l' = Ok l) by exact (eq_trans (eq_sym E') E). injection EL as <-.
  exists (show 1 (p_segs p)), (show 1 (p_refs p)), (map (fun c => show 1 (if raw then c_seen c else c_pct c)) (p_cs p)), mark. eexists. eexists. split.
  - apply R; [exact MK| |eapply segs_five; [exact M|apply S1]|eapply refs_six; [exact M|apply S2]| |eapply serr_six; [exact M|apply S3]| |apply SO|apply SO| |apply SO|apply SO].
    + unfold fits. cbn [length]. rewrite Nat.add_0_r. pose proof (m_name _ _ _ _ _ _ _ M) as N. destruct (fold_max (by_name m) 7) as (N7 & _). rewrite <- N in N7. lia.
    + rewrite (m_wcols _ _ _ _ _ _ _ M). destruct VS as (_ & VS). clear - CS VS. revert VS. induction CS as [|f c fs cs CO F IH]; intros VS; cbn [map] in *; [constructor|]. inversion VS as [|? ? V1 V2]; subst. constructor; [|apply IH, V2].
      destruct CO as (_ & _ & _ & EC). unfold fits, mark. rewrite EC. destruct (starred ds); [change (length (bytes "+")) with 1|cbn [length]]; lia.
    + unfold fits. cbn [length]. rewrite Nat.add_0_r. destruct S4 as (_ & S4). lia.
    + apply Forall_map, Forall_forall. intros; apply SO.
  - split; [intros H; apply starred_iff in H; unfold mark; fold ds in H; rewrite H; reflexivity|].
    split; [intros H; unfold mark; destruct (starred ds) eqn:ST; [exfalso; apply H, starred_iff, ST|reflexivity]|].
    split; [apply S1|]. split; [apply S2|]. split; [apply VS|]. split; [apply S3|apply S4].
Qed.
End Stats.
Lemma mean_solid junk k s : solid (mean junk k s).
Proof. apply fixed_solid. Qed.
Lemma median_solid junk k s : solid (median junk k s).
Proof. apply fixed_solid. Qed.
Lemma deviation_solid junk k s : solid (deviation junk k s).
Proof. unfold deviation, root. destruct (st_variance s); apply fixed_solid. Qed.
