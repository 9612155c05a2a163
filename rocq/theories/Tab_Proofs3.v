(** Lemmas for the tables. *)
From Coq Require Import String List ZArith NArith Arith Bool QArith Lia Lqa Permutation Sorted.
From Verif Require Import Base Store_Model Sgml_Model Stats_Model Stats_Spec Stats_Thm Pad_Model Rep_Model Tab_Model Tab_Spec Tab_Proofs1 Tab_Proofs2.
Import ListNotations.
Local Open Scope res_scope.
Local Open Scope nat_scope.
Local Notation length := List.length.

(** ** The order of the names *)
Lemma before_earlier : forall a b, before a b = true <-> earlier a b.
Proof.
  induction a as [|x a IH]; intros [|y b]; cbn [before].
  - split; [discriminate|inversion 1].
  - split; [constructor|reflexivity].
  - split; [discriminate|inversion 1].
  - rewrite orb_true_iff, andb_true_iff, N.ltb_lt, N.eqb_eq, IH. split.
    + intros [H|(-> & H)]; [apply e_less, H|apply e_same, H].
    + inversion 1; subst; [left; assumption|right; split; [reflexivity|assumption]].
Qed.
Lemma earlier_total : forall a b, a <> b -> ~ earlier a b -> earlier b a.
Proof.
  induction a as [|x a IH]; intros [|y b] NE NB; [congruence|exfalso; apply NB; constructor|constructor|].
  destruct (N.lt_trichotomy x y) as [L|[->|L]]; [exfalso; apply NB, e_less, L| |apply e_less, L]. apply e_same, IH; [congruence|]. intros H. apply NB, e_same, H.
Qed.
Lemma earlier_trans : forall a b c, earlier a b -> earlier b c -> earlier a c.
Proof.
  intros a b c H. revert c. induction H as [y b|x y a b L|x a b H IH]; intros c K; inversion K; subst; try (constructor; fail); try (apply e_less; lia); try (apply e_less; assumption).
  apply e_same, IH. assumption.
Qed.
Definition by_fst {V} (a b : str * V) : Prop := earlier (fst a) (fst b).
Lemma place_perm {V} (e : str * V) l : Permutation (e :: l) (place e l).
Proof. induction l as [|f l IH]; [reflexivity|]. cbn [place]. destruct (before (fst f) (fst e)); [|reflexivity]. rewrite perm_swap. constructor. exact IH. Qed.
Lemma by_name_perm {V} (m : smap V) : Permutation m (by_name m).
Proof. induction m as [|e m IH]; [reflexivity|]. cbn [by_name fold_right]. rewrite <- place_perm. constructor. exact IH. Qed.
Lemma by_name_sorted {V} (m : smap V) : NoDup (map fst m) -> StronglySorted by_fst (by_name m).
Proof.
  induction m as [|e m IH]; intros ND; [constructor|]. cbn [by_name fold_right]. inversion ND as [|? ? NI ND']; subst. specialize (IH ND').
  assert (NE : forall f, In f (by_name m) -> fst f <> fst e). { intros f I E. apply NI. rewrite <- E. apply in_map. eapply Permutation_in; [symmetry; apply by_name_perm|exact I]. }
  fold (by_name m). clear - IH NE. induction IH as [|f l S IH F]; [repeat constructor|]. cbn [place]. match goal with |- context [if ?b then _ else _] => destruct b eqn:B end.
  - apply before_earlier in B. constructor; [apply IH; intros; apply NE; right; assumption|]. eapply Permutation_Forall; [apply place_perm|]. constructor; assumption.
  - assert (G : earlier (fst e) (fst f)). { apply earlier_total; [intros X; apply (NE f (or_introl eq_refl)); assumption|]. intros H. apply before_earlier in H. exact (eq_true_false_abs _ H B). }
    constructor; [constructor; assumption|]. constructor; [exact G|]. eapply Forall_impl; [|exact F]. intros g H. eapply earlier_trans; [exact G|exact H].
Qed.

(** ** Columns *)
Lemma Forall2_length {A B} (R : A -> B -> Prop) l k : Forall2 R l k -> length l = length k.
Proof. induction 1; cbn [length]; congruence. Qed.
Definition ds_of (m : smap datas) : list datas := map snd (by_name m).
Lemma ds_perm m : Permutation (map snd m) (ds_of m).
Proof. apply Permutation_map, by_name_perm. Qed.
Lemma list_sum_perm l l' : Permutation l l' -> list_sum l = list_sum l'.
Proof. induction 1; cbn [list_sum fold_right]; unfold list_sum in *; lia. Qed.
Lemma all_ds f m : all f m = list_sum (map f (ds_of m)).
Proof. unfold all. rewrite <- (map_map snd f). apply list_sum_perm, Permutation_map, ds_perm. Qed.
Definition column_ok (junk : Z) (ds : list datas) (f : datas -> nat) (c : column) : Prop :=
  compute (map (count f) ds) = Some (c_all c) /\ compute (map (count f) (seen ds)) = Some (c_seen c) /\ compute (map (percent f d_refs) (seen ds)) = Some (c_pct c)
  /\ c_size c = (Z.max (Z.max 6 (max_size junk (map (count f) ds) (c_all c))) (max_size junk (map (count f) (seen ds)) (c_seen c)) + (if starred ds then 1 else 0))%Z.
Lemma columns_ok junk ds : forall fs, exists cs, columns junk ds fs = Ok cs /\ Forall2 (column_ok junk ds) fs cs.
Proof.
  induction fs as [|f fs (cs & E & F)]; [exists []; split; [reflexivity|constructor]|]. cbn [columns]. unfold column_of.
  destruct (statistics_ok junk (map (count f) ds)) as (a & za & -> & A & ->). destruct (statistics_ok junk (map (count f) (seen ds))) as (b & zb & -> & B & ->).
  destruct (statistics_ok junk (map (percent f d_refs) (seen ds))) as (p & zp & -> & P & _). cbn [rbind]. rewrite E. cbn [rbind]. eexists. split; [reflexivity|]. constructor; [|exact F].
  repeat split; cbn [c_all c_seen c_pct c_size]; assumption.
Qed.
Lemma errors_eq d : d_errors d = errors d.
Proof. unfold d_errors, errors. lia. Qed.
Lemma starred_iff m : starred (ds_of m) = true <-> no_words m.
Proof.
  unfold starred. rewrite existsb_exists. split.
  - intros (d & I & E). apply Nat.eqb_eq in E. unfold ds_of in I. apply in_map_iff in I as (e & <- & I). exists e. split; [|exact E]. eapply Permutation_in; [symmetry; apply by_name_perm|exact I].
  - intros (e & I & E). exists (snd e). split; [|apply Nat.eqb_eq, E]. unfold ds_of. apply in_map. eapply Permutation_in; [apply by_name_perm|exact I].
Qed.
Lemma fold_max (rows : list (str * datas)) : forall k, (k <= fold_left (fun k r => Z.max k (Z.of_nat (length (fst r)))) rows k)%Z
  /\ Forall (fun r => (Z.of_nat (length (fst r)) <= fold_left (fun k r => Z.max k (Z.of_nat (length (fst r)))) rows k)%Z) rows.
Proof.
  induction rows as [|r rows IH]; intros k; cbn [fold_left]; [split; [lia|constructor]|].
  destruct (IH (Z.max k (Z.of_nat (length (fst r))))) as (A & B). split; [lia|]. constructor; [lia|exact B].
Qed.

(** ** The table and its parts *)
Record parts := { p_w : widths; p_segs : stats; p_refs : stats; p_serr : stats; p_pserr : stats; p_nces : stats; p_cs : list column;
  p_top : str; p_sys : str; p_titles : str; p_lines : list str; p_sums : str; p_means : str; p_sds : str; p_medians : str }.
Section Parts.
Variables (raw inc : bool) (junk : Z) (m : smap datas) (nce : str -> Q) (tnce : Q) (systm : str).
Let ds := ds_of m.
Let star := starred ds.
Definition good_nce (r : str * datas) : bool := negb (d_refs (snd r) =? 0)%nat && qabs_le (nce (fst r)) 1000.
Record made (p : parts) : Prop := {
  m_segs : compute (map (count d_segs) ds) = Some (p_segs p);
  m_refs : compute (map (count d_refs) ds) = Some (p_refs p);
  m_serr : compute (map (count d_segerrs) ds) = Some (p_serr p);
  m_pserr : compute (map (percent d_segerrs d_segs) ds) = Some (p_pserr p);
  m_nces : compute (map (fun r => nce (fst r)) (filter good_nce (by_name m))) = Some (p_nces p);
  m_cs : Forall2 (column_ok junk ds) (shown inc) (p_cs p);
  m_name : w_name (p_w p) = fold_left (fun k r => Z.max k (Z.of_nat (length (fst r)))) (by_name m) 7%Z;
  m_wsegs : w_segs (p_w p) = Z.max 5 (max_size junk (map (count d_segs) ds) (p_segs p));
  m_wrefs : w_refs (p_w p) = Z.max 6 (max_size junk (map (count d_refs) ds) (p_refs p));
  m_wcols : w_cols (p_w p) = map c_size (p_cs p);
  m_wserr : w_serr (p_w p) = Z.max (Z.max 6 (max_size junk (map (count d_segerrs) ds) (p_serr p))) (max_size junk (map (percent d_segerrs d_segs) ds) (p_pserr p));
  m_top : Z.of_nat (length (p_top p)) = full inc (p_w p);
  m_sys : (Z.of_nat (length (p_sys p)) = full inc (p_w p) - 2)%Z;
  m_titles : title_line inc (p_w p) = Ok (p_titles p);
  m_lines : speaker_lines raw inc junk (p_w p) star nce (by_name m) = Ok (p_lines p);
  m_sums : sum_line raw junk (p_w p) star (p_segs p) (p_refs p) (p_serr p) (p_cs p) tnce = Ok (p_sums p);
  m_means : stat_line raw (p_w p) star "Mean" (mean junk) (p_segs p) (p_refs p) (p_serr p) (p_pserr p) (p_cs p) (p_nces p) = Ok (p_means p);
  m_sds : stat_line raw (p_w p) star "S.D." (deviation junk) (p_segs p) (p_refs p) (p_serr p) (p_pserr p) (p_cs p) (p_nces p) = Ok (p_sds p);
  m_medians : stat_line raw (p_w p) star "Median" (median junk) (p_segs p) (p_refs p) (p_serr p) (p_pserr p) (p_cs p) (p_nces p) = Ok (p_medians p) }.
Definition assembled (p : parts) : list str :=
  let w := full inc (p_w p) in
  [p_top p; ruler "." "-" w; bytes "|" ++ p_sys p ++ bytes "|"; ruler "|" "-" w; p_titles p] ++ p_lines p
   ++ [ruler "|" "=" w; p_sums p; ruler "|" "=" w; p_means p; p_sds p; p_medians p; ruler "'" "-" w] ++ notes star.
Lemma cols_length p : made p -> length (p_cs p) = (if inc then 6 else 5).
Proof. intros M. pose proof (Forall2_length _ _ _ (m_cs p M)) as L. unfold shown in L. destruct inc; cbn [length app] in L; congruence. Qed.
End Parts.
Lemma shown_length inc : length (shown inc) = (if inc then 6 else 5).
Proof. destruct inc; reflexivity. Qed.
Lemma column_wide junk ds fs cs : Forall2 (column_ok junk ds) fs cs -> Forall (fun z => (6 <= z)%Z) (map c_size cs).
Proof. induction 1 as [|f c fs cs (_ & _ & _ & E) F IH]; constructor; [|exact IH]. rewrite E. destruct (starred ds); lia. Qed.
Lemma full_low inc w : wide inc w -> (7 <= w_name w)%Z -> (9 <= full inc w)%Z.
Proof.
  intros ((_ & A & B & C & D) & _) N. unfold full, w_nce. assert (0 <= fold_right Z.add 0 (w_cols w))%Z by (clear - C; induction C; cbn; lia). destruct inc; lia.
Qed.
Lemma speaker_lines_ok raw inc junk w star nce : wide inc w -> forall rows, exists ls, speaker_lines raw inc junk w star nce rows = Ok ls /\ length ls = 2 * length rows
  /\ (forall k n d, nth_error rows k = Some (n, d) -> exists l, nth_error ls (2 * k + 1) = Some l /\ speaker_line raw inc junk w star n d (nce n) = Ok l)
  /\ ((2 <= full inc w)%Z -> Forall (fun l => Z.of_nat (length l) = full inc w) ls).
Proof.
  intros W. induction rows as [|(n, d) rows (ls & E & L & K & F)].
  - exists []. split; [reflexivity|]. split; [reflexivity|]. split; [|constructor]. intros [|k] n d H; discriminate H.
  - cbn [speaker_lines]. unfold speaker_line at 1.
    destruct (line_ok inc w "left" n (int (d_segs d)) (int (d_refs d)) (map (speaker_cell raw junk d) (shown inc)) (speaker_mark raw star d) [] (if raw then int (d_segerrs d) else real junk 1 (percent d_segerrs d_segs d)) (nce_cell junk d (nce n)) W
      ltac:(cbn; tauto) ltac:(rewrite map_length; apply shown_length)) as (l & EL & LL & _). rewrite EL. cbn [rbind]. rewrite E. cbn [rbind]. eexists. split; [reflexivity|]. split; [cbn [length]; lia|]. split.
    + intros [|k] n' d' H.
      * injection H as -> ->. exists l. split; [reflexivity|exact EL].
      * destruct (K k n' d' H) as (l' & H' & EL'). exists l'. split; [|exact EL']. replace (2 * S k + 1) with (S (S (2 * k + 1))) by lia. exact H'.
    + intros FL. constructor; [apply ruler_length; [reflexivity|reflexivity|exact FL]|]. constructor; [exact LL|apply F, FL].
Qed.
Lemma table_made_head raw inc junk m nce tnce systm : Forall (fun e => 1 <= d_segs (snd e)) m ->
  exists p, table raw inc junk m nce tnce systm = Ok (assembled inc m p) /\ made raw inc junk m nce tnce p /\ wide inc (p_w p) /\ (7 <= w_name (p_w p))%Z
    /\ ((36 <= full inc (p_w p))%Z -> centred (bytes "SYSTEM SUMMARY PERCENTAGE by SPEAKER") (p_top p))
    /\ ((Z.of_nat (length (file_name systm)) <= full inc (p_w p) - 2)%Z -> centred (file_name systm) (p_sys p)).
Proof.
  intros SG. unfold table. fold (ds_of m).
  replace (existsb (fun d => (d_segs d =? 0)%nat) (ds_of m)) with false.
  2:{ symmetry. apply not_true_iff_false. intros E. apply existsb_exists in E as (d & I & E). apply Nat.eqb_eq in E. apply (Permutation_in _ (Permutation_sym (ds_perm m))) in I. apply in_map_iff in I as (e & <- & I).
      rewrite Forall_forall in SG. specialize (SG e I). lia. }
  destruct (statistics_ok junk (map (count d_segs) (ds_of m))) as (segs & z1 & -> & S1 & ->). cbn [rbind].
  destruct (statistics_ok junk (map (count d_refs) (ds_of m))) as (refs & z2 & -> & S2 & ->). cbn [rbind].
  destruct (statistics_ok junk (map (count d_segerrs) (ds_of m))) as (serr & z3 & -> & S3 & ->). cbn [rbind].
  destruct (statistics_ok junk (map (percent d_segerrs d_segs) (ds_of m))) as (pserr & z4 & -> & S4 & ->). cbn [rbind].
  fold (good_nce nce). destruct (statistics_ok junk (map (fun r : str * datas => nce (fst r)) (filter (good_nce nce) (by_name m)))) as (nces & z5 & E5 & S5 & _).
  change (fun r : list N * datas => negb (d_refs (snd r) =? 0) && qabs_le (nce (fst r)) 1000) with (good_nce nce). rewrite E5. cbn [rbind].
  destruct (columns_ok junk (ds_of m) (shown inc)) as (cs & -> & C). cbn [rbind]. cbv zeta.
  set (w := {| w_name := _ |}).
  assert (LC : length cs = (if inc then 6 else 5)) by (rewrite <- (Forall2_length _ _ _ C); apply shown_length).
  destruct (fold_max (by_name m) 7) as (N7 & _).
  assert (W : wide inc w).
  { split; [|unfold w; cbn [w_cols]; rewrite map_length; exact LC]. unfold w; cbn [w_name w_segs w_refs w_cols w_serr]. split; [apply (Z.le_trans 3 7); [lia|exact N7]|]. split; [lia|]. split; [lia|]. split; [|lia]. eapply Forall_impl; [|exact (column_wide _ _ _ _ C)]. cbv beta. intros z H6. lia. }
  pose proof (full_low inc w W N7) as FL.
  unfold text. destruct (cell_ok (bytes "SYSTEM SUMMARY PERCENTAGE by SPEAKER") "middle" (full inc w) [] ltac:(cbn; tauto) ltac:(lia)) as (top & -> & TL & TF). cbn [rbind].
  destruct (cell_ok (file_name systm) "middle" (full inc w - 2) [] ltac:(cbn; tauto) ltac:(lia)) as (sys & -> & SL & SF). cbn [rbind].
  destruct (title_line inc w) as [titles| | |] eqn:TI; cycle 1.
  1,2,3: exfalso; unfold title_line in TI;
    match type of TI with line _ ?j ?a ?b ?c ?v ?d ?s ?n = _ => destruct (line_ok inc w j a b c v d [] s n W ltac:(cbn; tauto) ltac:(destruct inc; reflexivity)) as (l & EL & _); rewrite EL in TI; discriminate TI end.
  cbn [rbind].
  destruct (speaker_lines_ok raw inc junk w (starred (ds_of m)) nce W (by_name m)) as (ls & EL & _). rewrite EL. cbn [rbind].
  destruct (sum_line raw junk w (starred (ds_of m)) segs refs serr cs tnce) as [sums| | |] eqn:SU; cycle 1.
  1,2,3: exfalso; unfold sum_line in SU;
    match type of SU with line _ ?j ?a ?b ?c ?v ?d ?s ?n = _ => destruct (line_ok inc w j a b c v d [] s n W ltac:(cbn; tauto) ltac:(rewrite map_length; exact LC)) as (l & EL' & _); rewrite EL' in SU; discriminate SU end.
  cbn [rbind].
  assert (ST : forall lab show, exists l, stat_line raw w (starred (ds_of m)) lab show segs refs serr pserr cs nces = Ok l).
  { intros lab show. unfold stat_line. match goal with |- exists _, line _ ?j ?a ?b ?c ?v ?d ?s ?n = _ => destruct (line_ok inc w j a b c v d [] s n W ltac:(cbn; tauto) ltac:(rewrite map_length; exact LC)) as (l & EL' & _) end. exists l. exact EL'. }
  destruct (ST "Mean"%string (mean junk)) as (means & ME). rewrite ME. cbn [rbind]. destruct (ST "S.D."%string (deviation junk)) as (sds & SD). rewrite SD. cbn [rbind]. destruct (ST "Median"%string (median junk)) as (medians & MD). rewrite MD. cbn [rbind].
  exists {| p_w := w; p_segs := segs; p_refs := refs; p_serr := serr; p_pserr := pserr; p_nces := nces; p_cs := cs; p_top := top; p_sys := sys; p_titles := titles; p_lines := ls; p_sums := sums; p_means := means; p_sds := sds; p_medians := medians |}.
  split; [reflexivity|]. split; [|split; [exact W|split; [exact N7|split]]].
  2:{ cbn [p_w p_top]. intros H. destruct (TF ltac:(change (length (bytes "SYSTEM SUMMARY PERCENTAGE by SPEAKER") + length (@nil N)) with 36; lia)) as (i & k & ->). rewrite app_nil_r. exists i, k. reflexivity. }
  2:{ cbn [p_w p_sys]. intros H. destruct (SF ltac:(change (length (@nil N)) with 0; rewrite Nat.add_0_r; exact H)) as (i & k & ->). rewrite app_nil_r. exists i, k. reflexivity. }
  constructor; cbn [p_w p_segs p_refs p_serr p_pserr p_nces p_cs p_top p_sys p_titles p_lines p_sums p_means p_sds p_medians]; try assumption; reflexivity.
Qed.
Lemma table_made raw inc junk m nce tnce systm : Forall (fun e => 1 <= d_segs (snd e)) m ->
  exists p, table raw inc junk m nce tnce systm = Ok (assembled inc m p) /\ made raw inc junk m nce tnce p /\ wide inc (p_w p) /\ (7 <= w_name (p_w p))%Z.
Proof. intros SG. destruct (table_made_head raw inc junk m nce tnce systm SG) as (p & A & B & C & D & _). exists p. auto. Qed.
