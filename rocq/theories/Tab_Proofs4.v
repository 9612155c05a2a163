(** Lemmas for what the lines show. *)
From Coq Require Import String List ZArith NArith Arith Bool QArith Lia Lqa Permutation Sorted.
From Verif Require Import Base Store_Model Sgml_Model Stats_Model Stats_Spec Stats_Proofs Stats_Thm Pad_Model Rep_Model Tab_Model Tab_Spec Tab_Proofs1 Tab_Proofs2 Tab_Proofs3.
Import ListNotations.
Local Open Scope res_scope.
Local Open Scope nat_scope.
Local Notation length := List.length.

Lemma shows_eq p x y s : (x == y)%Q -> shows p x s -> shows p y s.
Proof.
  intros E (z & (N1 & N2) & P). exists z. split; [|exact P]. unfold nearest in *. cbv zeta in *. set (c := inject_Z (10 ^ Z.of_nat p)) in *.
  assert (EC : (x * c == y * c)%Q) by (rewrite E; reflexivity). split; intros H; [destruct (N1 ltac:(lra)) as (A & B)|destruct (N2 ltac:(lra)) as (A & B)]; split; lra.
Qed.
Lemma shows_root_eq p x y s : (x == y)%Q -> shows_root p x s -> shows_root p y s.
Proof.
  intros E (z & Z0 & P & A & B). exists z. split; [exact Z0|]. split; [exact P|]. cbv zeta in *. set (c := inject_Z (100 ^ Z.of_nat p)) in *.
  assert (EC : (x * c == y * c)%Q) by (rewrite E; reflexivity). split; [intros H; specialize (A H); lra|lra].
Qed.
Lemma count_solid n s : shows_count n s -> solid s.
Proof. apply decimal_solid. Qed.
Lemma q_pos n : (0 <= q n)%Q.
Proof. unfold q. change 0%Q with (inject_Z 0). rewrite <- Zle_Qle. lia. Qed.
Lemma q_lt n : 1 <= n -> (0 < q n)%Q.
Proof. intros H. unfold q. change 0%Q with (inject_Z 0). rewrite <- Zlt_Qlt. lia. Qed.
Lemma ratio_pos a b : (0 <= ratio a b)%Q.
Proof.
  unfold ratio. pose proof (q_pos a). destruct b as [|b].
  - change (q 0) with 0%Q. unfold Qdiv. change (/ 0)%Q with 0%Q. lra.
  - apply Qle_shift_div_l; [apply q_lt; lia|]. lra.
Qed.
Lemma ratio_bound a b c : (100 * Z.of_nat a <= c * Z.of_nat b)%Z -> 1 <= b -> (0 <= c)%Z -> within (ratio a b) (inject_Z c).
Proof.
  intros H B C0. pose proof (ratio_pos a b) as P. assert (C : (0 <= inject_Z c)%Q) by (change 0%Q with (inject_Z 0); rewrite <- Zle_Qle; exact C0). split; [lra|]. unfold ratio. apply Qle_shift_div_r; [apply q_lt, B|].
  unfold q. change 100%Q with (inject_Z 100). rewrite <- !inject_Z_mult, <- Zle_Qle. lia.
Qed.
Lemma ratio_text junk p a b : (100 * Z.of_nat a <= 9999 * Z.of_nat b)%Z -> 1 <= b -> p = 1 -> shows p (ratio a b) (real junk p (ratio a b)) /\ length (real junk p (ratio a b)) <= 6.
Proof.
  intros H B ->. pose proof (ratio_bound a b 9999%Z H B ltac:(lia)) as W. split.
  - apply (real_shows junk 1 _ 9999%Z); [lia|exact W|reflexivity].
  - apply (real_length junk 1 (ratio a b) 9999%Z 4); [lia|exact W|reflexivity|reflexivity|lia|apply ratio_pos].
Qed.
Lemma Forall2_cols {A B C} (R : A -> B -> Prop) (g : A -> C) (h : B -> Z) (P : C -> Z -> Prop) fs cs : Forall2 R fs cs ->
  (forall f c, In f fs -> R f c -> P (g f) (h c)) -> Forall2 P (map g fs) (map h cs).
Proof. induction 1 as [|f c fs cs H F IH]; intros K; cbn [map]; constructor; [apply K; [left; reflexivity|exact H]|]. apply IH. intros f' c' I. apply K. right. exact I. Qed.
Lemma counts_shown {A} inc (P : (datas -> nat) -> A -> Prop) (g : (datas -> nat) -> A) :
  (forall f x, P f x -> forall f', (forall d, f d = f' d) -> P f' x) ->
  (forall f, In f (shown inc) -> P f (g f)) -> Forall2 P (counts inc) (map g (shown inc)).
Proof.
  intros X H. unfold counts, shown in *. destruct inc; cbn [app map In] in *; repeat (constructor; [try (apply H; tauto)|]); try constructor;
    apply (X d_errors); [apply H; tauto|exact errors_eq|apply H; tauto|exact errors_eq].
Qed.

Lemma in_shown inc f d : In f (shown inc) -> counted d -> (100 * Z.of_nat (errors d) <= 9999 * Z.of_nat (d_refs d))%Z -> (100 * Z.of_nat (f d) <= 9999 * Z.of_nat (d_refs d))%Z.
Proof.
  intros I (C & _) E. unfold errors in *. assert (f d <= d_refs d + d_ins d /\ (f = d_ins \/ f = d_errors \/ f d <= d_refs d)).
  { unfold shown in I. destruct inc; cbn [app In] in I; repeat (destruct I as [<-|I]); try contradiction; unfold d_errors; (split; [lia|]); try (right; right; lia); tauto. }
  destruct H as (_ & [->|[->|H]]); unfold d_errors; lia.
Qed.


Section Rows.
Variables (raw inc : bool) (junk : Z) (m : smap datas) (nce : str -> Q) (tnce : Q) (p : parts).
Hypothesis M : made raw inc junk m nce tnce p.
Hypothesis W : wide inc (p_w p).
Let ds := ds_of m.
Lemma column_count f c n : column_ok junk ds f c -> n <= list_sum (map f ds) -> (Z.of_nat (length (int n)) + (if starred ds then 1 else 0) <= c_size c)%Z.
Proof.
  clear M W. intros (A & _ & _ & E) H. pose proof (count_fits junk f ds (c_all c) 6 n A H ltac:(lia)) as G. change (map (fun a => q (f a)) ds) with (map (count f) ds) in G. rewrite E. destruct (starred ds); lia.
Qed.
Lemma column_six f c : column_ok junk ds f c -> (6 + (if starred ds then 1 else 0) <= c_size c)%Z.
Proof. clear M W. intros (_ & _ & _ & E). rewrite E. destruct (starred ds); lia. Qed.
Lemma in_ds n d : In (n, d) (by_name m) -> In d ds.
Proof. intros I. unfold ds, ds_of. apply (in_map snd _ _ I). Qed.
Lemma segs_fit n : n <= list_sum (map d_segs ds) -> fits (w_segs (p_w p)) (int n) [].
Proof. intros H. unfold fits. rewrite (m_wsegs _ _ _ _ _ _ _ M). cbn [length]. rewrite Nat.add_0_r. apply (count_fits junk d_segs ds); [exact (m_segs _ _ _ _ _ _ _ M)|exact H|lia]. Qed.
Lemma refs_fit n : n <= list_sum (map d_refs ds) -> fits (w_refs (p_w p)) (int n) [].
Proof. intros H. unfold fits. rewrite (m_wrefs _ _ _ _ _ _ _ M). cbn [length]. rewrite Nat.add_0_r. apply (count_fits junk d_refs ds); [exact (m_refs _ _ _ _ _ _ _ M)|exact H|lia]. Qed.
Lemma serr_fit n : n <= list_sum (map d_segerrs ds) -> fits (w_serr (p_w p)) (int n) [].
Proof.
  intros H. unfold fits. rewrite (m_wserr _ _ _ _ _ _ _ M). cbn [length]. rewrite Nat.add_0_r.
  pose proof (count_fits junk d_segerrs ds _ 6 n (m_serr _ _ _ _ _ _ _ M) H ltac:(lia)) as G. change (map (fun a => q (d_segerrs a)) ds) with (map (count d_segerrs) ds) in G. fold ds. lia.
Qed.
Lemma serr_six s : length s <= 6 -> fits (w_serr (p_w p)) s [].
Proof. intros H. unfold fits. rewrite (m_wserr _ _ _ _ _ _ _ M). cbn [length]. rewrite Nat.add_0_r. lia. Qed.
Lemma refs_six s : length s <= 6 -> fits (w_refs (p_w p)) s [].
Proof. intros H. unfold fits. rewrite (m_wrefs _ _ _ _ _ _ _ M). cbn [length]. rewrite Nat.add_0_r. lia. Qed.
Lemma segs_five s : length s <= 5 -> fits (w_segs (p_w p)) s [].
Proof. intros H. unfold fits. rewrite (m_wsegs _ _ _ _ _ _ _ M). cbn [length]. rewrite Nat.add_0_r. lia. Qed.
(** ** Speakers *)
Lemma speaker_row_ok n d l : In (n, d) (by_name m) -> counted d -> (raw = false -> 1 <= d_refs d -> (100 * Z.of_nat (errors d) <= 9999 * Z.of_nat (d_refs d))%Z) ->
  speaker_line raw inc junk (p_w p) (starred ds) n d (nce n) = Ok l -> speaker_row raw inc n d (nce n) l.
Proof.
  intros I C PE E. pose proof (in_ds n d I) as ID. unfold speaker_line in E.
  set (mark := if (d_refs d =? 0) && negb raw then bytes "*" else []).
  destruct (line_ok inc (p_w p) "left" n (int (d_segs d)) (int (d_refs d)) (map (speaker_cell raw junk d) (shown inc)) (speaker_mark raw (starred ds) d) mark
    (if raw then int (d_segerrs d) else real junk 1 (percent d_segerrs d_segs d)) (nce_cell junk d (nce n)) W ltac:(cbn; tauto) ltac:(rewrite map_length; apply shown_length)) as (l' & E' & _ & R).
  rewrite E' in E. injection E as <-.
  assert (ST : d_refs d = 0 -> starred ds = true). { intros Z. apply existsb_exists. exists d. split; [exact ID|apply Nat.eqb_eq, Z]. }
  assert (MK : mark_ok (speaker_mark raw (starred ds) d) mark).
  { unfold speaker_mark, mark. destruct (Nat.eqb_spec (d_refs d) 0) as [Z|Z].
    - rewrite (ST Z). destruct raw; cbn [andb negb]; [right; split; reflexivity|]. left. split; [reflexivity|]. repeat constructor; discriminate.
    - cbn [andb]. destruct (starred ds); [right; split; reflexivity|left; split; [reflexivity|constructor]]. }
  assert (ML : Z.of_nat (length (speaker_mark raw (starred ds) d)) = (if starred ds then 1 else 0)%Z).
  { unfold speaker_mark. destruct (starred ds); [|reflexivity]. destruct (_ && _); reflexivity. }
  assert (SE : (if raw then shows_count (d_segerrs d) (int (d_segerrs d)) else shows 1 (ratio (d_segerrs d) (d_segs d)) (real junk 1 (percent d_segerrs d_segs d)))
    /\ fits (w_serr (p_w p)) (if raw then int (d_segerrs d) else real junk 1 (percent d_segerrs d_segs d)) []).
  { destruct C as (_ & C1 & C2). pose proof (serr_fit (d_segerrs d) ltac:(apply in_list_sum, in_map, ID)) as SF. pose proof serr_six as S6. destruct raw; [split; [apply int_count|exact SF]|].
    destruct (ratio_text junk 1 (d_segerrs d) (d_segs d) ltac:(lia) C2 eq_refl) as (A & B). split; [exact A|apply S6, B]. }
  assert (NC : speaker_nce d (nce n) (nce_cell junk d (nce n)) /\ fits 9 (nce_cell junk d (nce n)) [] /\ solid (nce_cell junk d (nce n))).
  { unfold speaker_nce, nce_cell, fits. cbn [length]. rewrite Nat.add_0_r. destruct (Nat.eqb_spec (d_refs d) 0) as [Z|Z]; cbn [negb andb].
    - split; [reflexivity|]. split; [vm_compute; discriminate|]. split; [discriminate|repeat constructor; discriminate].
    - destruct (qabs_le (nce n) 1000) eqn:A; [|destruct (Qle_bool (nce n) (-1000)) eqn:B].
      + unfold qabs_le in A. apply andb_true_iff in A as (A1 & A2). apply Qle_bool_iff in A1, A2. change (-(1000))%Q with (- 1000)%Q in A2.
        assert (WN : within (nce n) (inject_Z 1000)) by (split; change (inject_Z 1000) with 1000%Q; lra).
        split; [split; [intros; lra|split; [intros; lra|]]|].
        * intros _. apply (real_shows junk 3 _ 1000%Z); [lia|exact WN|reflexivity].
        * split; [|apply fixed_solid]. pose proof (proj1 (real_length junk 3 (nce n) 1000%Z 4 ltac:(lia) WN eq_refl eq_refl ltac:(lia))). lia.
      + apply Qle_bool_iff in B. split; [split; [reflexivity|split; [intros; lra|]]|].
        * intros (G1 & G2). exfalso. unfold qabs_le in A. apply andb_false_iff in A as [A|A]; apply not_true_iff_false in A; apply A, Qle_bool_iff; lra.
        * split; [vm_compute; discriminate|]. split; [discriminate|repeat constructor; discriminate].
      + apply not_true_iff_false in B. rewrite Qle_bool_iff in B. split; [split; [intros G; exfalso; apply B; lra|split; [reflexivity|]]|].
        * intros (G1 & G2). exfalso. unfold qabs_le in A. apply andb_false_iff in A as [A|A]; apply not_true_iff_false in A; apply A, Qle_bool_iff; lra.
        * split; [vm_compute; discriminate|]. split; [discriminate|repeat constructor; discriminate]. }
  assert (CE : forall f, In f (shown inc) -> speaker_value raw d f (speaker_cell raw junk d f ++ mark) /\ solid (speaker_cell raw junk d f)
     /\ forall c, column_ok junk ds f c -> fits (c_size c) (speaker_cell raw junk d f) (speaker_mark raw (starred ds) d)).
  { intros f IF. pose proof (int_count (f d)) as IC. assert (FI : forall c, column_ok junk ds f c -> fits (c_size c) (int (f d)) (speaker_mark raw (starred ds) d)).
    { intros c CO. unfold fits. pose proof (column_count f c (f d) CO (in_list_sum _ _ (in_map f _ _ ID))). lia. }
    unfold speaker_value, speaker_cell, mark. destruct raw.
    - rewrite andb_false_r, app_nil_r. split; [exact IC|]. split; [exact (count_solid _ _ IC)|exact FI].
    - destruct (Nat.eqb_spec (d_refs d) 0) as [Z|Z]; cbn [andb negb].
      + split; [exists (int (f d)); split; [exact IC|reflexivity]|]. split; [exact (count_solid _ _ IC)|exact FI].
      + rewrite app_nil_r. destruct (ratio_text junk 1 (f d) (d_refs d)) as (A & B); [apply (in_shown inc f d IF C), PE; [reflexivity|lia]|lia|reflexivity|].
        change (percent f d_refs d) with (ratio (f d) (d_refs d)). split; [exact A|]. split; [apply fixed_solid|]. intros c CO. unfold fits. pose proof (column_six f c CO). lia. }
  eexists. eexists. eexists. eexists. eexists. split.
  - apply R; [exact MK| |apply segs_fit, in_list_sum, in_map, ID|apply refs_fit, in_list_sum, in_map, ID| |apply SE|apply NC|eapply count_solid, int_count|eapply count_solid, int_count| | |apply NC].
    + unfold fits. rewrite (m_name _ _ _ _ _ _ _ M). cbn [length]. rewrite Nat.add_0_r. destruct (fold_max (by_name m) 7) as (_ & FM). rewrite Forall_forall in FM. exact (FM (n, d) I).
    + rewrite (m_wcols _ _ _ _ _ _ _ M). apply (Forall2_cols (column_ok junk ds)); [exact (m_cs _ _ _ _ _ _ _ M)|]. intros f c IF CO. apply (CE f IF), CO.
    + apply Forall_forall. intros v IV. apply in_map_iff in IV as (f & <- & IF). apply (CE f IF).
    + destruct raw; [eapply count_solid, int_count|apply fixed_solid].
  - split; [apply int_count|]. split; [apply int_count|]. split; [|split; [destruct SE as (SE & _); clear - SE; destruct raw; exact SE|apply NC]]. rewrite map_map. apply counts_shown; [|intros f IF; apply (CE f IF)].
    intros f x H f' EF. unfold speaker_value in *. rewrite <- EF. exact H.
Qed.

(** ** Sums *)
Lemma sum_q f c : column_ok junk ds f c -> (st_sum (c_all c) == q (all f m))%Q.
Proof. clear M W. intros (A & _). rewrite (sum_eq _ _ A). change (map (count f) ds) with (map (fun a => q (f a)) ds). rewrite qtotal_count. rewrite all_ds. reflexivity. Qed.
Lemma sum_q' f s : compute (map (count f) ds) = Some s -> (st_sum s == q (all f m))%Q.
Proof. clear M W. intros A. rewrite (sum_eq _ _ A). change (map (count f) ds) with (map (fun a => q (f a)) ds). rewrite qtotal_count. rewrite all_ds. reflexivity. Qed.
Lemma whole_count x n : (x == q n)%Q -> (Z.of_nat n < 2 ^ 31)%Z -> whole junk x = int n.
Proof. clear M W. intros E B. unfold whole, int. rewrite (trunc_int x (Z.of_nat n) E ltac:(lia)), to_int_in by lia. reflexivity. Qed.
Lemma ratio_near x a b : (x == ratio a b)%Q -> (100 * Z.of_nat a <= 9999 * Z.of_nat b)%Z -> 1 <= b -> shows 1 (ratio a b) (real junk 1 x) /\ length (real junk 1 x) <= 6.
Proof.
  clear M W. intros E H B. pose proof (ratio_bound a b 9999%Z H B ltac:(lia)) as (W1 & W2). assert (WX : within x (inject_Z 9999)) by (split; rewrite E; assumption). split.
  - apply (shows_eq 1 x); [exact E|]. apply (real_shows junk 1 _ 9999%Z); [lia|exact WX|reflexivity].
  - apply (real_length junk 1 x 9999%Z 4); [lia|exact WX|reflexivity|reflexivity|lia|]. rewrite E. apply ratio_pos.
Qed.
Lemma get_pos x n : (x == q n)%Q -> 1 <= n -> get true x = x.
Proof. clear M W. intros E N. unfold get. replace (Qeq_bool x 0) with false; [reflexivity|]. symmetry. apply not_true_iff_false. rewrite Qeq_bool_iff. intros Z. pose proof (q_lt n N). rewrite <- E, Z in H. lra. Qed.
Lemma sum_row_ok l : (forall f, In f (d_segs :: d_refs :: d_segerrs :: shown inc) -> (Z.of_nat (all f m) < 2 ^ 31)%Z) ->
  (raw = false -> 1 <= all d_refs m /\ 1 <= all d_segs m /\ all d_segerrs m <= all d_segs m /\ forall f, In f (shown inc) -> (100 * Z.of_nat (all f m) <= 9999 * Z.of_nat (all d_refs m))%Z) ->
  within tnce 9999 ->
  sum_line raw junk (p_w p) (starred ds) (p_segs p) (p_refs p) (p_serr p) (p_cs p) tnce = Ok l -> sum_row raw inc m tnce l.
Proof.
  intros SM PE TN E. unfold sum_line in E. pose proof (m_cs _ _ _ _ _ _ _ M) as CS. fold ds in CS.
  pose proof (sum_q' _ _ (m_segs _ _ _ _ _ _ _ M)) as QS. pose proof (sum_q' _ _ (m_refs _ _ _ _ _ _ _ M)) as QR. pose proof (sum_q' _ _ (m_serr _ _ _ _ _ _ _ M)) as QE.
  rewrite (whole_count _ _ QS), (whole_count _ _ QR) in E by (apply SM; cbn; tauto).
  destruct (line_ok inc (p_w p) "left" (bytes (if raw then "Sum" else "Sum/Avg")) (int (all d_segs m)) (int (all d_refs m)) (map (sum_cell raw junk (p_refs p)) (p_cs p)) (if starred ds then bytes " " else []) []
    (if raw then whole junk (st_sum (p_serr p)) else real junk 1 (100 * st_sum (p_serr p) / get true (st_sum (p_segs p)))%Q) (real junk 3 tnce) W ltac:(cbn; tauto) ltac:(rewrite map_length; eapply cols_length; exact M)) as (l' & E' & _ & R).
  rewrite E' in E. injection E as <-.
  assert (TN' : within tnce (inject_Z 9999)) by (destruct TN; split; assumption).
  assert (CE : forall f c, In f (shown inc) -> column_ok junk ds f c -> (if raw then shows_count (all f m) (sum_cell raw junk (p_refs p) c) else shows 1 (ratio (all f m) (all d_refs m)) (sum_cell raw junk (p_refs p) c))
    /\ solid (sum_cell raw junk (p_refs p) c) /\ fits (c_size c) (sum_cell raw junk (p_refs p) c) (if starred ds then bytes " " else [])).
  { intros f c IF CO. pose proof (sum_q f c CO) as QC. unfold sum_cell. destruct raw.
    - rewrite (whole_count _ _ QC) by (apply SM; cbn; tauto). split; [apply int_count|]. split; [eapply count_solid, int_count|]. unfold fits.
      pose proof (column_count f c (all f m) CO ltac:(rewrite all_ds; apply Nat.le_refl)). destruct (starred ds); cbn [length bytes]; [change (length (bytes " ")) with 1|]; lia.
    - destruct (PE eq_refl) as (P1 & P2 & P3 & P4). rewrite (get_pos _ _ QR P1).
      replace (Qeq_bool (st_sum (p_refs p)) 0) with false. 2:{ symmetry. apply not_true_iff_false. rewrite Qeq_bool_iff. intros Z. pose proof (q_lt _ P1). rewrite <- QR, Z in H. lra. }
      destruct (ratio_near (100 * st_sum (c_all c) / st_sum (p_refs p))%Q (all f m) (all d_refs m)) as (A & B); [rewrite QC, QR; reflexivity|apply P4, IF|exact P1|].
      split; [exact A|]. split; [apply fixed_solid|]. unfold fits. pose proof (column_six f c CO). destruct (starred ds); [change (length (bytes " ")) with 1|cbn [length]]; lia. }
  assert (SE : (if raw then shows_count (all d_segerrs m) (whole junk (st_sum (p_serr p))) else shows 1 (ratio (all d_segerrs m) (all d_segs m)) (real junk 1 (100 * st_sum (p_serr p) / get true (st_sum (p_segs p)))%Q))
    /\ fits (w_serr (p_w p)) (if raw then whole junk (st_sum (p_serr p)) else real junk 1 (100 * st_sum (p_serr p) / get true (st_sum (p_segs p)))%Q) []
    /\ solid (if raw then whole junk (st_sum (p_serr p)) else real junk 1 (100 * st_sum (p_serr p) / get true (st_sum (p_segs p)))%Q)).
  { pose proof (serr_fit (all d_segerrs m) ltac:(rewrite all_ds; apply Nat.le_refl)) as SF. pose proof serr_six as S6. destruct raw.
    - rewrite (whole_count _ _ QE) by (apply SM; cbn; tauto). split; [apply int_count|]. split; [exact SF|eapply count_solid, int_count].
    - destruct (PE eq_refl) as (P1 & P2 & P3 & P4). rewrite (get_pos _ _ QS P2).
      destruct (ratio_near (100 * st_sum (p_serr p) / st_sum (p_segs p))%Q (all d_segerrs m) (all d_segs m)) as (A & B); [rewrite QE, QS; reflexivity|lia|exact P2|].
      split; [exact A|]. split; [apply S6, B|apply fixed_solid]. }
  assert (MK : mark_ok (if starred ds then bytes " " else []) []). { destruct (starred ds); [right; split; reflexivity|left; split; [reflexivity|constructor]]. }
  assert (VS : Forall2 (fun f s => if raw then shows_count (all f m) s else shows 1 (ratio (all f m) (all d_refs m)) s) (counts inc) (map (sum_cell raw junk (p_refs p)) (p_cs p))
     /\ Forall2 (fun v z => fits z v (if starred ds then bytes " " else [])) (map (sum_cell raw junk (p_refs p)) (p_cs p)) (w_cols (p_w p)) /\ Forall solid (map (sum_cell raw junk (p_refs p)) (p_cs p))).
  { rewrite (m_wcols _ _ _ _ _ _ _ M).
    assert (G : forall fs cs, Forall2 (column_ok junk ds) fs cs -> (forall f, In f fs -> In f (shown inc)) ->
       Forall2 (fun f s => if raw then shows_count (all f m) s else shows 1 (ratio (all f m) (all d_refs m)) s) fs (map (sum_cell raw junk (p_refs p)) cs)
       /\ Forall2 (fun v z => fits z v (if starred ds then bytes " " else [])) (map (sum_cell raw junk (p_refs p)) cs) (map c_size cs) /\ Forall solid (map (sum_cell raw junk (p_refs p)) cs)).
    { induction 1 as [|f c fs cs CO F IH]; intros SUB; cbn [map]; [repeat split; constructor|]. destruct (IH ltac:(intros g I; apply SUB; right; exact I)) as (I1 & I2 & I3).
      destruct (CE f c (SUB f (or_introl eq_refl)) CO) as (C1 & C2 & C3). repeat split; constructor; assumption. }
    destruct (G _ _ CS ltac:(auto)) as (G1 & G2 & G3). split; [|split; assumption]. clear - G1.
    assert (EA : all errors m = all d_errors m). { unfold all. f_equal. apply map_ext. intros e. symmetry. apply errors_eq. }
    unfold counts, shown in *. destruct inc; cbn [app] in *; repeat match goal with H : Forall2 _ (_ :: _) _ |- _ => inversion H; subst; clear H end; match goal with H : Forall2 _ [] _ |- _ => inversion H; subst; clear H end; repeat (constructor; try assumption); rewrite EA; assumption. }
  exists (int (all d_segs m)), (int (all d_refs m)), (map (sum_cell raw junk (p_refs p)) (p_cs p)). eexists. eexists. split.
  - replace (map (sum_cell raw junk (p_refs p)) (p_cs p)) with (map (fun v : str => v ++ []) (map (sum_cell raw junk (p_refs p)) (p_cs p))) by (rewrite map_map; apply map_ext; intros; apply app_nil_r).
    apply R; [exact MK| |apply segs_fit; rewrite all_ds; apply Nat.le_refl|apply refs_fit; rewrite all_ds; apply Nat.le_refl|apply VS|apply SE| |eapply count_solid, int_count|eapply count_solid, int_count|apply VS|apply SE|apply fixed_solid].
    + unfold fits. cbn [length]. rewrite Nat.add_0_r. pose proof (m_name _ _ _ _ _ _ _ M) as N. destruct (fold_max (by_name m) 7) as (N7 & _). rewrite <- N in N7. apply (Z.le_trans _ 7); [destruct raw; vm_compute; discriminate|exact N7].
    + unfold fits. cbn [length]. rewrite Nat.add_0_r. pose proof (proj1 (real_length junk 3 tnce 9999%Z 4 ltac:(lia) TN' eq_refl eq_refl ltac:(lia))). lia.
  - split; [apply int_count|]. split; [apply int_count|]. split; [apply VS|]. split; [destruct SE as (SE & _); clear - SE; destruct raw; exact SE|]. apply (real_shows junk 3 _ 9999%Z); [lia|exact TN'|reflexivity].
Qed.
End Rows.
