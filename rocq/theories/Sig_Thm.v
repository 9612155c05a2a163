(** The reports of the significance tests. *)
From Coq Require Import String List ZArith NArith Arith Bool QArith Lia.
From Verif Require Import Base Store_Model Pad_Model Pad_Spec Pad_Thm Sig_Model Sig_Spec Sig_Proofs1 Sig_Proofs2 Sig_Proofs3 Sig_Proofs4.
Import ListNotations.
Local Open Scope res_scope.
Local Open Scope nat_scope.

(** [centre] is what the function over the static array leaves in it. *)
Lemma centre_is_center : forall desc s len, length desc = 2000 ->
  match Pad_Model.center desc s len with
  | Ok b => exists r, centre s len = Ok r /\ holds b r
  | Exit => centre s len = Exit
  | Undef => centre s len = Undef
  | NoFuel => False
  end.
Proof.
  intros desc s len L. pose proof (C46_center desc s len L) as H. unfold centre, slen. destruct (Pad_Model.center desc s len) as [b| | |]; [| | |exact H].
  - destruct H as (A & B & _ & r & Hr & F1 & F2). destruct (Z.leb_spec 2000 len); [lia|]. destruct (Z.leb_spec 2000 (Z.of_nat (length s))); [lia|].
    exists r. split; [|exact Hr]. f_equal. destruct (Z_le_gt_dec (Z.of_nat (length s)) len) as [K|K].
    + destruct (F1 K) as (F3 & f & g & -> & F4). unfold Pad_Spec.blanks, blanks in *. rewrite !app_length, !repeat_length in F3.
      rewrite Z.quot_div_nonneg by lia.
      assert (Q : ((len - Z.of_nat (length s)) / 2 = Z.of_nat f)%Z) by (symmetry; apply Z.div_unique with (r := (len - Z.of_nat (length s) - 2 * Z.of_nat f)%Z); lia).
      rewrite Q. do 2 f_equal; [f_equal; lia|f_equal; f_equal; lia].
    + rewrite (F2 ltac:(lia)).
      pose proof (Z.quot_opp_l (Z.of_nat (length s) - len) 2 ltac:(lia)) as O. replace (- (Z.of_nat (length s) - len))%Z with (len - Z.of_nat (length s))%Z in O by lia.
      pose proof (Z.quot_pos (Z.of_nat (length s) - len) 2 ltac:(lia) eq_refl). pose proof (Z.quot_rem' (Z.of_nat (length s) - len) 2). pose proof (Z.rem_bound_pos (Z.of_nat (length s) - len) 2 ltac:(lia) eq_refl).
      rewrite O. replace (Z.to_nat (- Z.quot (Z.of_nat (length s) - len) 2)) with 0 by lia.
      replace (Z.to_nat (len - (Z.of_nat (length s) + - Z.quot (Z.of_nat (length s) - len) 2))) with 0 by lia. cbn. apply app_nil_r.
  - destruct (Z.leb_spec 2000 len); [reflexivity|lia].
  - destruct (Z.leb_spec 2000 len); [lia|]. destruct (Z.leb_spec 2000 (Z.of_nat (length s))); [reflexivity|lia].
Qed.

(** ** The report of each system *)
(** C112: the report of a system names it, and has for every other system and every test the system that is better,
    or "same"; the legend has the tests. *)
Theorem C112_reports : forall outdir testname names tests files, Forall word names -> one_line testname ->
  Forall (fun t => one_line (t_desc t) /\ word (t_id t)) tests -> sts outdir testname names tests = Ok files ->
  length files = length names
  /\ forall s, s < length names -> exists r, nth_error files s = Some (report_file outdir (nth s names []), r)
       /\ words (nth 2 (split 10%N r) []) = [nth s names []]
       /\ headings r = map t_id tests
       /\ entries r = map (fun t => nth t names [] :: map (fun k => against names (t_win k) s t) tests) (others (length names) s)
       /\ legend (length tests) r = map (fun t => words (t_desc t) ++ [t_id t]) tests
       /\ ((exists x, In x names /\ 4 <= length x) -> (forall t, In t tests -> exists x, In x names /\ length (t_id t) <= length x) ->
           exists k, Forall (fun l => length l = k) (table_lines r)).
Proof.
  intros outdir testname names tests files W TN T H. unfold sts in H.
  destruct (200 <=? slen (for_the testname))%Z; [discriminate H|]. apply each_inv in H. split; [rewrite <- (F2_len _ _ _ H); apply numbered_length|].
  intros s Hs. destruct (F2_nth _ _ _ _ _ H (numbered_nth names s Hs)) as ([f r] & E & P). cbn [snd] in P. rewrite sts_name_file in P.
  destruct (200 <=? slen (report_file outdir (nth s names [])))%Z; [discriminate P|]. next P. injection P as <- <-.
  exists (text a). split; [exact E|]. destruct (sts_lines_ok _ _ _ _ _ W TN T Hs E0) as (A & B & C & D & F).
  split; [exact A|]. split; [exact B|]. split; [exact C|]. split; [exact D|]. intros (x & X1 & X2) I.
  eexists. pose proof (proj2 (longest_fold names 0) x X1) as X3. unfold slen in X3.
  eapply Forall_impl; [|apply F; [lia|]].
  - intros l Hl. cbv beta in Hl. apply (f_equal Z.to_nat) in Hl. rewrite Nat2Z.id in Hl. exact Hl.
  - intros t Ht. destruct (I t Ht) as (y & Y1 & Y2). pose proof (proj2 (longest_fold names 0) y Y1) as Y3. unfold slen in *. lia.
Qed.
Print Assumptions C112_reports.

(** The reports are written when the names fit. *)
Theorem C112_reports_written : forall outdir testname names tests, length testname < 167 ->
  (forall x, In x names -> length x < 200 /\ length (report_file outdir x) < 200 /\ (length x + 2) * (length tests + 1) < 2000) ->
  (forall t, In t tests -> length (t_desc t) < 1000 /\ length (t_id t) < 900) ->
  exists files, sts outdir testname names tests = Ok files.
Proof.
  intros outdir testname names tests HT HN HI. unfold sts.
  assert (FT : (slen (for_the testname) < 200)%Z) by (unfold slen, for_the; rewrite !app_length; replace (length (bytes "for the ")) with 8 by reflexivity; replace (length (bytes " Test with other Systems:")) with 25 by reflexivity; lia).
  destruct (Z.leb_spec 200 (slen (for_the testname))); [lia|]. apply each_ok. intros [s a] Hsa. apply numbered_in in Hsa. destruct Hsa as (Hs & -> & Ha). cbn [snd].
  destruct (HN _ Ha) as (N1 & N2 & N3). rewrite sts_name_file. unfold slen, str in *. destruct (Z.leb_spec 200 (Z.of_nat (length (report_file outdir (nth s names []))))); [lia|].
  set (m := longest 0 names).
  assert (M0 : (0 <= m)%Z) by (apply (proj1 (longest_fold names 0))).
  assert (M : ((m + 2) * (Z.of_nat (length tests) + 1) < 2000 /\ m < 200)%Z).
  { unfold m. clear - HN Ha. assert (G : forall k, (0 <= k)%Z -> (forall x, In x names -> (slen x <= k)%Z) -> (longest 0 names <= k)%Z) by (intros k K1 K2; apply longest_bound; assumption).
    assert (X : exists x, In x names /\ (longest 0 names <= slen x)%Z).
    { clear - Ha. assert (G : forall l m, (longest m l <= m)%Z \/ exists x, In x l /\ longest m l = slen x).
      { induction l as [|x l IH]; intros m; [left; cbn; lia|]. unfold longest in *. cbn [fold_left]. destruct (Z.ltb_spec m (slen x)).
        - destruct (IH (slen x)) as [K|(y & Y1 & Y2)]; [right; exists x; split; [left; reflexivity|]|right; exists y; split; [right; exact Y1|exact Y2]].
          pose proof (proj1 (longest_fold l (slen x))) as P. unfold longest in P. lia.
        - destruct (IH m) as [K|(y & Y1 & Y2)]; [left; exact K|right; exists y; split; [right; exact Y1|exact Y2]]. }
      destruct (G names 0%Z) as [K|(x & X1 & X2)]; [exists (nth s names []); split; [exact Ha|unfold slen; lia]|exists x; split; [exact X1|lia]]. }
    destruct X as (x & X1 & X2). destruct (HN x X1) as (A & _ & B). pose proof (proj1 (longest_fold names 0)). unfold slen in X2. split; nia. }
  set (d := longest 0 (map t_desc tests)). set (i := longest 7 (map t_id tests)).
  assert (D : (0 <= d < 1000)%Z).
  { split; [apply (proj1 (longest_fold _ 0))|]. apply Z.le_lt_trans with 999%Z; [|lia]. apply longest_bound; [lia|].
    intros x Hx. apply in_map_iff in Hx. destruct Hx as (t & <- & Ht). destruct (HI t Ht). unfold slen. lia. }
  assert (I : (7 <= i < 900)%Z).
  { split; [apply (proj1 (longest_fold _ 7))|]. apply Z.le_lt_trans with 899%Z; [|lia]. apply longest_bound; [lia|].
    intros x Hx. apply in_map_iff in Hx. destruct Hx as (t & <- & Ht). destruct (HI t Ht). unfold slen. lia. }
  assert (WD : (0 <= sts_width testname names tests < 2000)%Z) by (unfold sts_width; cbv zeta; fold m d i; unfold slen; lia).
  unfold sts_lines. cbv zeta. cbn [fst snd]. fold m d i. set (w := sts_width testname names tests) in *.
  assert (OK : forall s0 len, (len < 2000)%Z -> (length s0 < 2000) -> exists r, centre s0 len = Ok r) by (intros; apply centre_ok; unfold slen; lia).
  destruct (OK (bytes "Summary of Statistical Significance Tests:") w ltac:(lia) ltac:(cbn; lia)) as [l1 ->]. cbn [rbind].
  destruct (OK (bytes "Comparing the System") w ltac:(lia) ltac:(cbn; lia)) as [l2 ->]. cbn [rbind].
  unfold slen. destruct (Z.leb_spec 200 (Z.of_nat (length (nth s names [])))); [lia|].
  destruct (OK (nth s names []) w ltac:(lia) ltac:(lia)) as [l3 ->]. cbn [rbind].
  destruct (OK (for_the testname) w ltac:(lia) ltac:(unfold slen in *; lia)) as [l4 ->]. cbn [rbind].
  destruct (each_ok (fun t => let* c := centre (t_id t) m in Ok (wide m c)) tests) as [ids ->].
  { intros t Ht. destruct (HI t Ht). destruct (OK (t_id t) m ltac:(lia) ltac:(lia)) as [c ->]. eexists. reflexivity. }
  cbn [rbind].
  destruct (each_ok (sts_row m tests (s, nth s names [])) (filter (fun o => negb (s =? fst o)) (numbered names))) as [rows ->].
  { intros [t b] Ho. apply filter_In in Ho. destruct Ho as [Ho1 Ho2]. cbn [fst] in Ho2. apply numbered_in in Ho1. destruct Ho1 as (Ht & -> & Hb). unfold sts_row.
    match goal with |- exists y, rbind (each ?f tests) _ = Ok y => destruct (each_ok f tests) as [cs ->] end.
    - intros k _. rewrite verdict_against by (intros ->; rewrite Nat.eqb_refl in Ho2; discriminate Ho2).
      destruct (OK (against names (t_win k) s t) m ltac:(lia)) as [c ->]; [|eexists; reflexivity].
      unfold against, better. destruct (t_win k _ _); [cbn; lia| |]; (apply Nat.lt_trans with 200; [apply HN, nth_In; unfold str in *; lia|lia]).
    - eexists. reflexivity. }
  cbn [rbind]. unfold sts_legend. cbv zeta.
  assert (Q : (Z.quot (w - (d + 5 + i)) 2 < 2000)%Z).
  { assert (K : (0 <= w - (d + 5 + i))%Z) by (unfold w, sts_width; cbv zeta; fold m d i; unfold slen; lia). rewrite Z.quot_div_nonneg by lia. apply Z.div_lt_upper_bound; lia. }
  destruct (OK [] (Z.quot (w - (d + 5 + i)) 2) Q ltac:(cbn; lia)) as [ind ->]. cbn [rbind].
  destruct (OK (bytes "Test Name") d ltac:(lia) ltac:(cbn; lia)) as [a1 ->]. cbn [rbind].
  destruct (OK [] 5%Z ltac:(lia) ltac:(cbn; lia)) as [g ->]. cbn [rbind].
  destruct (OK (bytes "Abbrev.") i ltac:(lia) ltac:(cbn; lia)) as [a2 ->]. cbn [rbind].
  match goal with |- context [@each ?A ?B ?f tests] => assert (EO : exists lg, @each A B f tests = Ok lg); [apply each_ok|destruct EO as [lg EO]; rewrite EO] end.
  - intros t Ht. destruct (HI t Ht). destruct (OK (t_desc t) d ltac:(lia) ltac:(lia)) as [b1 ->]. cbn [rbind]. destruct (OK (t_id t) i ltac:(lia) ltac:(lia)) as [b2 ->]. eexists. reflexivity.
  - cbn [rbind]. eexists. reflexivity.
Qed.
Print Assumptions C112_reports_written.

(** ** The matrix of a test *)
(** C112: every pair of systems has one box, on or below the diagonal the boxes are empty, and the lines are equally
    long unless all names have fewer than four letters. *)
Theorem C112_matrix : forall title formula block names w ls, Forall word names -> one_line title -> one_line formula -> one_line block ->
  matrix title formula block names w = Ok ls ->
  let g := grid (length names) (text ls) in
  boxes (nth 1 g []) = [] :: names
  /\ map boxes (seconds (skipn 2 g)) = map (matrix_row names w) (seq 0 (length names))
  /\ ((exists x, In x names /\ 4 <= length x) -> exists k, Forall (fun l => length l = k) g).
Proof.
  intros title formula block names w ls W T1 T2 T3 H g. destruct (matrix_ok _ _ _ _ _ _ W T1 T2 T3 H) as (A & B & C).
  split; [exact A|]. split; [exact B|]. intros (x & X1 & X2). apply C. pose proof (proj2 (longest_fold names 0) x X1). unfold slen in *. lia.
Qed.
Print Assumptions C112_matrix.

(** C112: so has the matrix of the matched pairs test; its lines are equally long unless a name has more than 46 letters. *)
Theorem C112_pairs : forall matrix_name v_desc tname good names w ls, Forall word names ->
  one_line matrix_name -> one_line v_desc -> one_line tname -> one_line good ->
  (forall s t, In (w s t) [-1; 0; 1]%Z) -> pair_matrix matrix_name v_desc tname good names w = Ok ls ->
  let g := grid (length names) (text ls) in
  boxes (nth 1 g []) = [] :: names
  /\ map boxes (seconds (skipn 2 g)) = map (matrix_row names w) (seq 0 (length names))
  /\ ((forall x, In x names -> length x <= 46) -> exists k, Forall (fun l => length l = k) g).
Proof.
  intros mn vd tn good names w ls W T1 T2 T3 T4 WV H g. destruct (pair_ok _ _ _ _ _ _ _ W T1 T2 T3 T4 WV H) as (A & B & C).
  split; [exact A|]. split; [exact B|]. intros X. apply C. apply longest_bound; [lia|]. intros x Hx. specialize (X x Hx). unfold slen. lia.
Qed.
Print Assumptions C112_pairs.

(** The matrix of the matched pairs test is printed when a name has two letters. *)
Theorem C112_pairs_printed : forall matrix_name v_desc tname good names w, (exists x, In x names /\ 2 <= length x) ->
  exists ls, pair_matrix matrix_name v_desc tname good names w = Ok ls.
Proof.
  intros mn vd tn good names w (x & X1 & X2). unfold pair_matrix. cbv zeta. set (m := longest 0 names).
  assert (M : (2 <= m)%Z) by (pose proof (proj2 (longest_fold names 0) x X1) as P; unfold slen in P; unfold m; lia).
  rewrite !some_ok by lia. cbn [rbind]. match goal with |- exists y, rbind (each ?f ?l) _ = Ok y => destruct (each_ok f l) as [rows ->] end.
  - intros [s a] Hs. apply numbered_in in Hs. destruct Hs as (_ & _ & Ha).
    match goal with |- exists y, rbind (each ?f ?l) _ = Ok y => destruct (each_ok f l) as [cs ->] end.
    + intros [t b] Ht. apply numbered_in in Ht. destruct Ht as (_ & _ & Hb). cbn [fst snd]. destruct (t <=? s); apply pair_cell_prints; [cbn; lia|].
      pose proof (proj2 (longest_fold names 0) a Ha). pose proof (proj2 (longest_fold names 0) b Hb). unfold pair_verdict. unfold m.
      destruct (w s t =? 1)%Z; [lia|]. destruct (w s t =? 0)%Z; [cbn; lia|lia].
    + eexists. reflexivity.
  - eexists. reflexivity.
Qed.
Print Assumptions C112_pairs_printed.

(** ** What does not hold *)
Definition no_difference (s t : nat) : Z := 0%Z.
Definition one_test : list test := [{| t_id := bytes "SI"; t_desc := bytes "Signed Paired Comparison"; t_win := no_difference; t_conf := fun _ _ => 1%Q |}].
(** with names shorter than "same" the columns are not below each other *)
Theorem C112_short_names_refuted : exists ls a b, matrix (bytes "t") (bytes "f") (bytes "b") [bytes "a"; bytes "b"] no_difference = Ok ls
  /\ In a (grid 2 (text ls)) /\ In b (grid 2 (text ls)) /\ length a <> length b.
Proof.
  do 3 eexists. split; [vm_compute; reflexivity|]. split; [vm_compute; left; reflexivity|]. split; [vm_compute; right; right; right; left; reflexivity|]. vm_compute. discriminate.
Qed.
(** the matched pairs test reads outside of an array when the names have one letter and there is no difference *)
Theorem C112_one_letter_refuted : forall matrix_name v_desc tname good, pair_matrix matrix_name v_desc tname good [bytes "a"; bytes "b"] no_difference = Undef.
Proof. intros. reflexivity. Qed.
(** its lines are not equally long when a name has 47 letters *)
Theorem C112_long_name_refuted : exists ls a b, pair_matrix (bytes "m") [] [] (bytes "2") [repeat 97%N 47; bytes "b"] no_difference = Ok ls
  /\ In a (grid 2 (text ls)) /\ In b (grid 2 (text ls)) /\ length a <> length b.
Proof.
  do 3 eexists. split; [vm_compute; reflexivity|]. split; [vm_compute; left; reflexivity|]. split; [vm_compute; right; left; reflexivity|]. vm_compute. discriminate.
Qed.
(** systems of the same name in different directories have one report *)
Theorem C112_one_file_refuted : exists r1 r2, sts (bytes "out") (bytes "t") [bytes "x/sys"; bytes "y/sys"] one_test = Ok [(bytes "out//sys.sts", r1); (bytes "out//sys.sts", r2)]
  /\ r1 <> r2.
Proof. do 2 eexists. split; [vm_compute; reflexivity|]. vm_compute. discriminate. Qed.

(** ** Examples *)
Definition three : list str := [bytes "sys1"; bytes "dir/sys2"; bytes "s3"].
Definition found (s t : nat) : Z := match s, t with 0, 1 => (-1)%Z | 0, 2 => 1%Z | _, _ => 0%Z end.
Definition two_tests : list test :=
  [{| t_id := bytes "SI"; t_desc := bytes "Signed Paired Comparison"; t_win := no_difference; t_conf := fun _ _ => 1%Q |};
   {| t_id := bytes "MN"; t_desc := bytes "McNemar (Sentence Error)"; t_win := found; t_conf := fun _ _ => 1%Q |}].
Lemma three_words : Forall word three.
Proof. repeat (apply Forall_cons; [split; [discriminate|]; repeat (apply Forall_cons; [repeat split; discriminate|]); constructor|]). constructor. Qed.
Lemma two_good : Forall (fun t => one_line (t_desc t) /\ word (t_id t)) two_tests.
Proof.
  repeat (apply Forall_cons; [split; [apply bytes_line; reflexivity|split; [discriminate|repeat (apply Forall_cons; [repeat split; discriminate|]); constructor]]|]). constructor.
Qed.
Example three_written : exists files, sts (bytes "out") (bytes "Test") three two_tests = Ok files.
Proof.
  apply C112_reports_written; [cbn; lia| |].
  - intros x H. repeat (destruct H as [<-|H]; [cbn; lia|]). destruct H.
  - intros t H. repeat (destruct H as [<-|H]; [cbn; lia|]). destruct H.
Qed.
Example three_read : exists files f r, sts (bytes "out") (bytes "Test") three two_tests = Ok files
  /\ nth_error files 1 = Some (f, r) /\ f = bytes "out//sys2.sts" /\ headings r = [bytes "SI"; bytes "MN"]
  /\ entries r = [[bytes "sys1"; bytes "same"; bytes "sys1"]; [bytes "s3"; bytes "same"; bytes "same"]].
Proof.
  destruct three_written as [files H]. destruct (C112_reports _ _ _ _ _ three_words (bytes_line "Test" eq_refl) two_good H) as [_ R].
  destruct (R 1 ltac:(cbn; lia)) as (r & A & _ & B & C & _). exists files. do 2 eexists. split; [exact H|]. split; [exact A|]. split; [reflexivity|]. split; [exact B|]. rewrite C. reflexivity.
Qed.
Example three_matrix : exists ls, matrix (bytes "Title") (bytes "Word Error") (bytes "Speaker") three found = Ok ls
  /\ map boxes (seconds (skipn 2 (grid 3 (text ls)))) =
     [[bytes "sys1"; []; bytes "sys1"; bytes "s3"]; [bytes "dir/sys2"; []; []; bytes "same"]; [bytes "s3"; []; []; []]].
Proof.
  eexists. split; [vm_compute; reflexivity|]. vm_compute. reflexivity.
Qed.
Example three_pairs : exists ls, pair_matrix (bytes "Title") [] (bytes "Test") (bytes "2") three found = Ok ls
  /\ map boxes (seconds (skipn 2 (grid 3 (text ls)))) =
     [[bytes "sys1"; []; bytes "sys1"; bytes "s3"]; [bytes "dir/sys2"; []; []; bytes "same"]; [bytes "s3"; []; []; []]].
Proof.
  eexists. split; [vm_compute; reflexivity|]. vm_compute. reflexivity.
Qed.
Example found_values : forall s t, In (found s t) [-1; 0; 1]%Z.
Proof. intros [|s] [|[|[|t]]]; cbn; tauto. Qed.
