(** The passes of the printed alignment. *)
From Coq Require Import String Ascii List Arith ZArith NArith Bool Lia.
From Verif Require Import Base Text_Model NetDp_Model Word_Model Path_Model Path_Spec Alex_Model Alex_Proofs1 Dtl_Model Pra_Model Pra_Spec.
Import ListNotations.
Local Open Scope res_scope.
Local Open Scope nat_scope.

Lemma aux_least a : aux_max a = least a.
Proof. unfold aux_max, least. destruct (at_rwtimes a), (at_rconf a), (at_rweight a), (at_hwtimes a), (at_hconf a), (at_hweight a); reflexivity. Qed.
Lemma wmax_ok a (s : step word) : well_formed_step s -> wmax a s = Ok (col a s).
Proof.
  destruct s as [[x y] ev]. intros W. unfold wmax, lena, lenb, col. rewrite aux_least. destruct ev; cbn in W; destruct W as [W1 W2]; destruct x as [x|], y as [y|]; try congruence; reflexivity.
Qed.
Definition short_gaps (s : step word) : Prop :=
  match s with (Some a, None, _) => length (w_value a) <= 40 | (None, Some b, _) => length (w_value b) <= 40 | _ => True end.
Lemma cells_ok up n a line f (l : list (step word)) : Forall well_formed_step l -> Forall (fun s => cell up n a line s = Ok (f s)) l ->
  cells up n a line l = Ok (flat_map (fun s => fill (col a s) (f s) ++ blanks 1) l).
Proof.
  intros W H. induction l as [|s l IH]; [reflexivity|]. cbn [cells]. rewrite (wmax_ok a s (Forall_inv W)). cbn [rbind]. rewrite (Forall_inv H). cbn [rbind].
  rewrite IH by (eapply Forall_inv_tail; eassumption). cbn [rbind flat_map]. rewrite <- app_assoc. reflexivity.
Qed.
Definition text_of up n a (line : nat) : step word -> list N :=
  match line with
  | 0 => ref_side up (at_case a)
  | 1 => on_ref (n_t1 n) | 2 => on_ref (n_t2 n) | 3 => on_ref (n_conf n)
  | 4 => hyp_side up (at_case a)
  | 5 => on_hyp (n_t1 n) | 6 => on_hyp (n_t2 n) | 7 => on_hyp (n_conf n)
  | 8 => on_ref (n_weight n) | 9 => on_hyp (n_weight n)
  | _ => mark
  end.
Lemma cell_ok up n a line (s : step word) : well_formed_step s -> short_gaps s -> cell up n a line s = Ok (text_of up n a line s).
Proof.
  destruct s as [[x y] ev]. intros W G.
  do 11 (destruct line as [|line]; [destruct ev; cbn in W; destruct W as [W1 W2]; destruct x as [x|], y as [y|]; try congruence; cbn in G |- *;
    unfold shown_word, show, stars; try (apply Nat.leb_le in G; rewrite G); destruct (at_case a); reflexivity|]).
  destruct ev; reflexivity.
Qed.
Lemma each_all {A B} (f : A -> res B) (g : A -> B) l : (forall x, In x l -> f x = Ok (g x)) -> each f l = Ok (map g l).
Proof. induction l as [|x l IH]; intros H; [reflexivity|]. cbn [each map]. rewrite (H x) by (left; reflexivity). cbn [rbind]. rewrite IH by (intros y Hy; apply H; right; exact Hy). reflexivity. Qed.
Lemma print_lines_ok up n a first (p : list (step word)) : Forall well_formed_step p -> Forall short_gaps p ->
  print_lines up n a (negb first) p = Ok (map (row a first p) (lines up n a)).
Proof.
  intros W G. unfold print_lines.
  rewrite (each_all _ (fun line => row a first p (title line, text_of up n a line))).
  - assert (E : map (fun line => (title line, text_of up n a line)) (filter (line_on a) (seq 0 11)) = lines up n a).
    { unfold lines. cbn [seq filter line_on]. destruct (at_rwtimes a), (at_rconf a), (at_hwtimes a), (at_hconf a), (at_rweight a), (at_hweight a); reflexivity. }
    rewrite <- E, map_map. reflexivity.
  - intros line _. rewrite (cells_ok up n a line (text_of up n a line)); [|exact W|].
    + cbn [rbind]. unfold row. cbn [fst snd]. destruct first; reflexivity.
    + rewrite Forall_forall in *. intros s Hs. apply cell_ok; auto.
Qed.

Definition sumw (a : attribs) (l : list (step word)) : nat := list_sum (map (fun s => S (col a s)) l).
Lemma sumw_cons a s l : sumw a (s :: l) = S (col a s) + sumw a l.
Proof. reflexivity. Qed.
Lemma sumw_app a l m : sumw a (l ++ m) = sumw a l + sumw a m.
Proof. unfold sumw. rewrite map_app, list_sum_app. reflexivity. Qed.
Lemma scan_ok a max : forall (l : list (step word)) plen, Forall well_formed_step l ->
  exists k, scan a (Z.of_nat max) (Z.of_nat plen) l = Ok k /\ k <= length l /\ (0 < k -> plen + sumw a (firstn (k - 1) l) < max) /\ (k < length l -> max <= plen + sumw a (firstn k l)).
Proof.
  induction l as [|s l IH]; intros plen W; cbn [scan length].
  - exists 0. repeat split; lia.
  - destruct (Z.ltb_spec (Z.of_nat plen) (Z.of_nat max)).
    + rewrite (wmax_ok a s (Forall_inv W)). cbn [rbind]. destruct (IH (plen + 1 + col a s)) as (k & E & L & A & B); [eapply Forall_inv_tail; exact W|].
      replace (Z.of_nat plen + 1 + Z.of_nat (col a s))%Z with (Z.of_nat (plen + 1 + col a s)) by lia. unfold wstep in *. rewrite E. cbn [rbind]. exists (S k). split; [reflexivity|]. split; [lia|]. split.
      * intros _. replace (S k - 1) with k by lia. destruct k as [|k]; [cbn; lia|]. cbn [firstn]. rewrite sumw_cons. specialize (A ltac:(lia)). replace (S k - 1) with k in A by lia. lia.
      * intros Lk. cbn [firstn]. rewrite sumw_cons. specialize (B ltac:(lia)). lia.
    + exists 0. split; [reflexivity|]. split; [lia|]. split; [lia|]. intros _. cbn. lia.
Qed.
Definition first_of (pre : list (step word)) : bool := match pre with [] => true | _ => false end.
Lemma passes_ok up n a max : forall m (rest : list (step word)) pre fuel, length rest <= m -> length rest < fuel -> Forall well_formed_step rest -> Forall short_gaps rest ->
  9 < max -> Forall (fun s => 10 + col a s < max) (removelast rest) ->
  exists ps, concat ps = rest /\ broken a max (first_of pre) ps /\ passes fuel up n a (Z.of_nat max) (pre ++ rest) (Z.of_nat (length pre)) = Ok (printed up n a (first_of pre) ps)
    /\ (forall s r, rest = s :: r -> exists p ps', ps = (s :: p) :: ps').
Proof.
  induction m as [|m IH]; intros rest pre fuel Lm Lf W G Hm R; (destruct fuel as [|fuel]; [lia|]); cbn [passes]; cbv zeta; unfold wstep in *.
  - destruct rest; [|cbn in Lm; lia]. rewrite app_nil_r. rewrite Z.ltb_irrefl. exists []. repeat split. discriminate.
  - destruct rest as [|s0 rest0]; [rewrite app_nil_r, Z.ltb_irrefl; exists []; repeat split; discriminate|]. set (rest := s0 :: rest0) in *.
    assert (Lr : 0 < length rest) by (cbn; lia).
    destruct (Z.ltb_spec (Z.of_nat (length pre)) (Z.of_nat (length (pre ++ rest)))) as [_|X]; [|rewrite app_length in X; lia].
    destruct (Z.ltb_spec (Z.of_nat (length pre)) 0); [lia|].
    replace (if (0 <? Z.of_nat (length pre))%Z then 9%Z else 6%Z) with (Z.of_nat (if first_of pre then 6 else 9)) by (destruct pre; reflexivity).
    rewrite Nat2Z.id, skipn_app, skipn_all, Nat.sub_diag. cbn [skipn app].
    destruct (scan_ok a max rest (if first_of pre then 6 else 9) W) as (k & -> & Lk & A & B). cbn [rbind].
    assert (K : k = length rest \/ (2 <= k /\ k < length rest)).
    { destruct (Nat.eq_dec k (length rest)) as [E|Ne]; [left; exact E|right]. assert (k < length rest) by lia. split; [|assumption]. specialize (B ltac:(assumption)).
      destruct k as [|[|k]]; [|exfalso|lia].
      - cbn in B. destruct (first_of pre); lia.
      - destruct rest0 as [|s1 rest1]; [cbn in *; lia|]. pose proof (Forall_inv R) as R1. cbn in B. cbn beta in R1. destruct (first_of pre); lia. }
    replace (0 <? Z.of_nat (length pre))%Z with (negb (first_of pre)) by (destruct pre; reflexivity).
    destruct K as [->|[K2 K3]].
    + destruct (Z.ltb_spec (Z.of_nat (length pre) + Z.of_nat (length rest)) (Z.of_nat (length (pre ++ rest)))) as [X|_]; [rewrite app_length in X; lia|].
      rewrite Z.sub_0_r. replace (Z.to_nat (Z.of_nat (length pre) + Z.of_nat (length rest) - Z.of_nat (length pre))) with (length rest) by lia.
      rewrite firstn_all, (print_lines_ok up n a (first_of pre) rest W G). cbn [rbind].
      replace (Z.of_nat (length pre) + Z.of_nat (length rest))%Z with (Z.of_nat (length (pre ++ rest))) by (rewrite app_length; lia).
      destruct fuel as [|fuel]; [cbn in Lf; lia|]. cbn [passes]. rewrite Z.ltb_irrefl. cbn [rbind]. exists [rest]. split; [cbn [concat]; apply app_nil_r|]. split.
      * cbn [broken]. split; [discriminate|]. unfold width. fold (sumw a (removelast rest)). rewrite removelast_firstn_len, <- Nat.sub_1_r. apply A. exact Lr.
      * split; [reflexivity|]. intros s r E. injection E as <- <-. exists rest0, []. reflexivity.
    + destruct (Z.ltb_spec (Z.of_nat (length pre) + Z.of_nat k) (Z.of_nat (length (pre ++ rest)))) as [_|X]; [|rewrite app_length in X; lia].
      replace (Z.to_nat (Z.of_nat (length pre) + Z.of_nat k - 1 - Z.of_nat (length pre))) with (k - 1) by lia.
      set (p := firstn (k - 1) rest). set (q := skipn (k - 1) rest). assert (Epq : rest = p ++ q) by (symmetry; apply firstn_skipn).
      assert (Lp : length p = k - 1) by (unfold p; rewrite firstn_length; lia). assert (Lq : length q = length rest - (k - 1)) by (unfold q; apply skipn_length).
      assert (Wp : Forall well_formed_step p /\ Forall well_formed_step q) by (apply Forall_app; rewrite <- Epq; exact W).
      assert (Gp : Forall short_gaps p /\ Forall short_gaps q) by (apply Forall_app; rewrite <- Epq; exact G).
      rewrite (print_lines_ok up n a (first_of pre) p) by tauto. cbn [rbind].
      assert (Eq' : exists s q', q = s :: q') by (clearbody q; destruct q; [exfalso; cbn [length] in Lq; lia|eexists _, _; reflexivity]). destruct Eq' as (s & q' & Eq). assert (Ap : (if first_of pre then 6 else 9) + sumw a p < max) by (apply A; lia). clearbody q p.
      destruct (IH q (pre ++ p) fuel) as (ps & Ec & Eb & Ep & Es); try tauto; try lia.
      { rewrite Epq in R. rewrite removelast_app in R by (rewrite Eq; discriminate). apply Forall_app in R. tauto. }
      replace (Z.of_nat (length pre) + Z.of_nat k - 1)%Z with (Z.of_nat (length (pre ++ p))) by (rewrite app_length; lia).
      rewrite Epq, app_assoc. rewrite Ep. cbn [rbind]. assert (Fp : first_of (pre ++ p) = false) by (destruct pre, p; try reflexivity; cbn in Lp; lia). rewrite Fp in *.
      destruct (Es s q' Eq) as (p' & ps' & ->). exists (p :: (s :: p') :: ps'). split; [cbn [concat] in *; rewrite Ec; reflexivity|]. split; [|split; [reflexivity|]].
      * cbn [broken]. split; [intros ->; cbn in Lp; lia|]. split; [|exact Eb]. unfold width. fold (sumw a p). fold (sumw a (p ++ [s])). split; [exact Ap|].
        specialize (B K3). replace (firstn k rest) with (p ++ [s]) in B; [exact B|]. rewrite Epq, Eq. replace k with (length p + 1) by lia. rewrite firstn_app_2. reflexivity.
      * intros s' r E. destruct p as [|s1 p1]; [cbn in Lp; lia|]. rewrite Epq in *. cbn in E. injection E as <- _. exists p1, ((s :: p') :: ps'). reflexivity.
Qed.
