(** The whole file, and the search for a word. *)
From Coq Require Import String List NArith ZArith Arith Bool Lia Permutation Sorted.
From Verif Require Import Base Text_Model Text_Spec Text_Proofs1 Word_Model Word_Proofs Order_Model Store_Model Alex_Model AsStm_Model Wwl_Model Wwl_Spec Wwl_Proofs1.
From Verif Require Text_Thm AsStm_Spec AsStm_Proofs1 Cor_Proofs5.
Import ListNotations.
Local Open Scope res_scope.
Local Open Scope nat_scope.

Lemma take_whole n : forall l r, length l <= n -> (exists b, l = b ++ [10%N] /\ ~ In 10%N b) \/ (r = [] /\ ~ In 10%N l) ->
  take_line n (l ++ r) = (l, r).
Proof.
  induction n as [|n IH]; intros [|c l] r L H; cbn [length] in L; try lia.
  - destruct H as [(b & E & _)|(-> & _)]; [destruct b; discriminate|]. reflexivity.
  - destruct H as [(b & E & _)|(-> & _)]; [destruct b; discriminate|]. reflexivity.
  - cbn [app take_line]. destruct (N.eqb_spec c 10) as [->|NE].
    + destruct H as [(b & E & NI)|(-> & NI)]; [|exfalso; apply NI; left; reflexivity].
      destruct b as [|x b]; [injection E as E; subst; reflexivity|]. injection E as <- _. exfalso. apply NI. left. reflexivity.
    + rewrite IH; [reflexivity|lia|]. destruct H as [(b & E & NI)|(-> & NI)].
      * left. destruct b as [|x b]; [injection E as E; congruence|]. injection E as _ E. exists b. split; [exact E|]. intros K. apply NI. right. exact K.
      * right. split; [reflexivity|]. intros K. apply NI. right. exact K.
Qed.
Lemma whole_fits e l : fits e l -> whole l = true.
Proof.
  intros (_ & H). unfold whole. destruct (Nat.eqb_spec (length l) (N.to_nat 999)); cbn [negb orb]; [|reflexivity].
  destruct H as [H|(_ & ->)]; [lia|reflexivity].
Qed.
Lemma default_some is : forall d, default_of is (Some d) = Some (match default_of is None with Some t => t | None => d end).
Proof.
  induction is as [|[w ws|ds|t|] is IH]; intros d; cbn [default_of]; try apply IH; [reflexivity|].
  rewrite (IH t). reflexivity.
Qed.
Lemma lines_ok num e go file ls : lines_of file ls -> forall is fuel s es m d x,
  Forall2 line_says ls is -> Forall (fits e) ls -> has s es (S m) d x -> length d + length (names_of is) <= MAX_W -> length file < fuel ->
  exists s' , lines num e go fuel file s = Ok (Some s')
    /\ has s' (es ++ map (entry num) (words_of is)) (S (fold_left (fun m p => Nat.min (length (snd p)) m) (words_of is) m)) (d ++ names_of is)
         (match default_of is None with Some t => num t | None => x end).
Proof.
  induction 1 as [|file l r ls NE FL LO IH]; intros is [|f] s es m d x F2 FT H B LF; try lia.
  - inversion F2; subst. cbn [lines words_of names_of map default_of]. rewrite !app_nil_r. cbn. eauto.
  - inversion F2 as [|l' i ls' is' LS F2']; subst. apply Forall_cons_iff in FT. destruct FT as (FT & FT').
    cbn [lines]. destruct file as [|c0 file0] eqn:EF; [congruence|]. rewrite <- EF in *. clear EF.
    destruct FL as (E & K).
    assert (LE : length l <= N.to_nat 999) by (destruct FT as (_ & [|(-> & _)]); lia).
    assert (TL : take_line (N.to_nat 999) file = (l, r)) by (rewrite E; apply take_whole; assumption).
    unfold str in *. rewrite TL. destruct FT as (WF & FT2).
    rewrite string_in_id by (eapply well_formed_no_nul; exact WF). rewrite (whole_fits e l) by (split; assumption). cbn [orb].
    destruct (line_ok num e l i s es (S m) d x LS WF H) as (s1 & -> & H1).
    { destruct i; try exact I. cbn [names_of] in B. unfold str in *. rewrite app_length in B. lia. }
    cbn [rbind].
    assert (LR : length r < f).
    { assert (0 < length l). { destruct l; [|cbn; lia]. destruct K as [(b & K & _)|(-> & _)]; [destruct b; discriminate|]. rewrite E in NE. exfalso. apply NE. reflexivity. }
      rewrite E, app_length in LF. lia. }
    destruct i; cbn [apply_item has'] in H1.
    + change (Nat.min (S (length ws)) (S m)) with (S (Nat.min (length ws) m)) in H1.
      destruct (IH is' f s1 _ _ _ _ F2' FT' H1 B LR) as (s2 & -> & H2). exists s2. split; [reflexivity|].
      cbn [words_of names_of map default_of fold_left snd]. rewrite <- app_assoc in H2. exact H2.
    + cbn [names_of] in B. unfold str in *. rewrite app_length in B.
      destruct (IH is' f s1 _ _ _ _ F2' FT' H1) as (s2 & -> & H2); [rewrite app_length; lia|exact LR|]. exists s2. split; [reflexivity|].
      cbn [words_of names_of map default_of]. rewrite <- app_assoc in H2. exact H2.
    + destruct (IH is' f s1 _ _ _ _ F2' FT' H1 B LR) as (s2 & -> & H2). exists s2. split; [reflexivity|].
      cbn [words_of names_of default_of]. rewrite default_some. assert (Q : forall o : option str, num (match o with Some t => t | None => d0 end) = match o with Some t => num t | None => num d0 end) by (intros []; reflexivity). pose proof (Q (default_of is' None)) as Q'. unfold str in *. rewrite Q'. exact H2.
    + destruct (IH is' f s1 _ _ _ _ F2' FT' H1 B LR) as (s2 & -> & H2). exists s2. split; [reflexivity|]. exact H2.
Qed.
Lemma fold_least ps : forall m, fold_left (fun m (p : str * list str) => Nat.min (length (snd p)) m) ps m = Nat.min m (fold_right (fun p m => Nat.min (length (snd p)) m) m ps).
Proof.
  assert (G : forall ps m n, fold_right (fun (p : str * list str) m => Nat.min (length (snd p)) m) (Nat.min n m) ps = Nat.min n (fold_right (fun p m => Nat.min (length (snd p)) m) m ps)).
  { induction ps0 as [|p ps0 IH]; intros m n; cbn; [reflexivity|]. rewrite IH. lia. }
  induction ps as [|p ps IH]; intros m; cbn [fold_left fold_right]; [lia|]. rewrite IH, G. lia.
Qed.
Lemma start_has : has start [] 10 [] 0%Z.
Proof. unfold has, start. cbn [s_words s_num s_guess s_min s_desc s_default length firstn map]. repeat split; try lia; apply Nat.ltb_lt; reflexivity. Qed.
Lemma each_some {A} (l : list A) : each (fun c => match c with Some w => Ok w | None => Undef end) (map Some l) = Ok l.
Proof. induction l as [|x l IH]; [reflexivity|]. cbn [map each rbind]. rewrite IH. reflexivity. Qed.

Lemma load_ok num e go sort name file ls is : name <> [] -> well_formed e name -> name <> bytes "unity" ->
  lines_of file ls -> Forall2 line_says ls is -> Forall (fits e) ls -> length (names_of is) <= MAX_W ->
  Forall (fun p => 1 <= length (snd p)) (words_of is) ->
  load_WWL num e go sort name (Some file) = Ok (Some {| l_desc := match names_of is with [] => map (column name) (seq 0 (least (words_of is))) | ds => ds end;
     l_default := default_weight num is; l_words := sort (map (entry num) (words_of is)) |}).
Proof.
  intros NE WF NU LO F2 FT B POS. unfold load_WWL. destruct name as [|c name]; [congruence|].
  assert (WU : well_formed e (bytes "unity")).
  { exists (map (fun b => [b]) (bytes "unity")). split; [reflexivity|]. repeat (apply Forall_cons; [eexists; eexists; split; [reflexivity|]; split; [destruct e; cbn; lia|repeat constructor; lia]|]). apply Forall_nil. }
  destruct (strcmp_text e (c :: name) (bytes "unity") WF WU) as (z & E & Z0). rewrite E. cbn [rbind].
  destruct (Z.eqb_spec z 0) as [Y|Y]; [apply Z0 in Y; contradiction|].
  destruct (lines_ok num e go file ls LO is (S (length file)) start [] 9 [] 0%Z F2 FT start_has B (Nat.lt_succ_diag_r _)) as (s & -> & H).
  cbn [rbind app] in *. destruct H as (N1 & F & L1 & L2 & G & M & D & X). unfold finish. rewrite N1, F, each_some. cbn [rbind].
  rewrite D, M, X. destruct (names_of is).
  - rewrite fold_least. fold (least (words_of is)).
    assert (L9 : least (words_of is) <= 9) by (unfold least; clear; induction (words_of is); cbn [fold_right]; lia).
    assert (L10 : 1 <= least (words_of is)) by (unfold least; clear -POS; induction POS; cbn [fold_right]; lia).
    rewrite Nat.min_r by exact L9. destruct (Nat.ltb_spec (S (least (words_of is))) 2); [lia|].
    cbn [Nat.sub]. rewrite Nat.sub_0_r. reflexivity.
  - reflexivity.
Qed.
Lemma says_pos ls is : Forall2 line_says ls is -> Forall (fun p => 1 <= length (snd p)) (words_of is).
Proof.
  induction 1 as [|l i ls is H F IH]; [constructor|]. destruct i; cbn [words_of]; try exact IH. constructor; [|exact IH].
  inversion H; subst. cbn [snd]. destruct ws0; [congruence|]. cbn. lia.
Qed.

(** ** Binary search *)
Definition at_most (e : enc) (s t : str) : Prop := exists z, strcmp e (cstr s) (cstr t) = Ok z /\ (z <= 0)%Z.
Lemma wf_holds e s : well_formed e s -> holds (cstr s) s.
Proof. intros H. apply (well_formed_holds e s H). Qed.
Lemma at_most_trans e a b c : well_formed e a -> well_formed e b -> well_formed e c -> at_most e a b -> at_most e b c -> at_most e a c.
Proof.
  intros A B C (z1 & E1 & L1) (z2 & E2 & L2).
  destruct (Text_Thm.C40_comparison_is_a_total_order e _ _ _ a b c (wf_holds e a A) (wf_holds e b B) (wf_holds e c C) A B C) as (z12 & z21 & z23 & z13 & H1 & H2 & H3 & H4 & _ & _ & _ & T).
  rewrite H1 in E1. injection E1 as <-. rewrite H3 in E2. injection E2 as <-. exists z13. auto.
Qed.
(** a text is compared with the texts of a sorted list *)
Lemma sides e w x z : well_formed e w -> well_formed e x -> strcmp e (cstr w) (cstr x) = Ok z ->
  (z = 0%Z -> w = x) /\ ((z < 0)%Z -> forall y, well_formed e y -> at_most e x y -> w <> y)
  /\ ((0 < z)%Z -> forall y, well_formed e y -> at_most e y x -> w <> y).
Proof.
  intros W X E. split; [|split].
  - destruct (strcmp_text e w x W X) as (z' & E' & I). rewrite E' in E. injection E as ->. apply I.
  - intros L y Y M ->. destruct M as (z2 & E2 & L2).
    destruct (Text_Thm.C40_comparison_is_a_total_order e _ _ _ x y x (wf_holds e x X) (wf_holds e y Y) (wf_holds e x X) X Y X) as (z12 & z21 & z23 & z13 & H1 & H2 & H3 & H4 & _ & _ & T & _).
    rewrite H1 in E2. injection E2 as <-. rewrite H2 in E. injection E as <-. lia.
  - intros L y Y M ->. destruct M as (z2 & E2 & L2). rewrite E2 in E. injection E as <-. lia.
Qed.
Definition R (e : enc) (x y : ww) : Prop := exists z, strcmp e (cstr (ww_str x)) (cstr (ww_str y)) = Ok z /\ (z <= 0)%Z.
Lemma sorted_nth e l : Sorted (R e) l -> Forall (fun w => well_formed e (ww_str w)) l ->
  forall i j x y, i <= j -> nth_error l i = Some x -> nth_error l j = Some y -> at_most e (ww_str x) (ww_str y).
Proof.
  induction 1 as [|a l HS IH HR]; intros WF i j x y L X Y; [destruct i; discriminate|].
  apply Forall_cons_iff in WF. destruct WF as (WA & WL).
  destruct j as [|j].
  - destruct i; [|lia]. cbn in X, Y. injection X as <-. injection Y as <-.
    destruct (strcmp_text e _ _ WA WA) as (z & E & I). exists z. split; [exact E|]. rewrite (proj2 I) by reflexivity. lia.
  - destruct i as [|i].
    + cbn in X. injection X as <-. cbn in Y. destruct l as [|b l]; [destruct j; discriminate|]. inversion HR as [|b' l' RB]; subst.
      apply (at_most_trans e _ (ww_str b)); [exact WA|apply (Forall_inv WL)| | exact RB|apply (IH WL 0 j b y); [lia|reflexivity|exact Y]].
      rewrite Forall_forall in WL. apply WL. eapply nth_error_In, Y.
    + cbn in X, Y. apply (IH WL i j); [lia|assumption..].
Qed.

Lemma search_ok e l k w : well_formed e w -> Forall (fun x => well_formed e (ww_str x)) (l_words l) -> Sorted (R e) (l_words l) ->
  (forall x, In x (l_words l) -> ww_str x = w -> exists v, nth_error (ww_weight x) k = Some (Some v)) ->
  forall fuel low high, (0 <= low)%Z -> (-1 <= high < Z.of_nat (length (l_words l)))%Z -> (low <= high \/ l_words l = [] /\ low = 0 /\ high = -1)%Z ->
  (Z.to_nat (high - low + 1) < fuel) ->
  (forall i x, nth_error (l_words l) i = Some x -> (Z.of_nat i < low \/ high < Z.of_nat i)%Z -> ww_str x <> w) ->
  exists z, search fuel e l k w low high = Ok z
    /\ ((exists x, In x (l_words l) /\ ww_str x = w /\ nth_error (ww_weight x) k = Some (Some z))
        \/ ((forall x, In x (l_words l) -> ww_str x <> w) /\ z = l_default l)).
Proof.
  intros W WL SO WT. induction fuel as [|f IH]; intros low high L0 LH C LF INV; [lia|]. cbn [search].
  destruct C as [C|(EN & -> & ->)].
  2:{ change (Z.quot (0 + -1) 2) with 0%Z. rewrite EN. cbn [length]. change (0 <? Z.of_nat 0)%Z with false. change (0 <=? -1)%Z with false. cbv iota zeta.
      eexists. split; [reflexivity|]. right. split; [intros x []|reflexivity]. }
  set (mid := Z.quot (low + high) 2).
  assert (MB : (low <= mid <= high)%Z).
  { unfold mid. rewrite Z.quot_div_nonneg by lia. split; [apply Z.div_le_lower_bound; lia|]. assert ((low + high) / 2 < high + 1)%Z; [apply Z.div_lt_upper_bound; lia|lia]. }
  clearbody mid. destruct (Z.ltb_spec mid (Z.of_nat (length (l_words l)))); [|lia]. destruct (Z.ltb_spec mid 0); [lia|].
  unfold get at 1. destruct (nth_error (l_words l) (Z.to_nat mid)) as [x|] eqn:EX; [|apply nth_error_None in EX; lia]. cbn [rbind].
  assert (WX : well_formed e (ww_str x)) by (rewrite Forall_forall in WL; apply WL; eapply nth_error_In, EX).
  destruct (strcmp_text e w (ww_str x) W WX) as (z & E & _). rewrite E. cbn [rbind].
  destruct (sides e w (ww_str x) z W WX E) as (S0 & SN & SP).
  assert (NONE : forall low' high', (high' < low')%Z -> (forall i y, nth_error (l_words l) i = Some y -> (Z.of_nat i < low' \/ high' < Z.of_nat i)%Z -> ww_str y <> w) ->
      forall y, In y (l_words l) -> ww_str y <> w).
  { intros low' high' HL I y IY. destruct (In_nth_error _ _ IY) as (i & EI). apply (I i y EI). lia. }
  destruct (Z.eqb_spec z 0) as [->|NZ].
  - pose proof (nth_error_In _ _ EX) as IX. destruct (WT x IX (eq_sym (S0 eq_refl))) as (v & EV). unfold get. rewrite EV. cbn [rbind].
    eexists. split; [reflexivity|]. left. exists x. split; [exact IX|]. split; [symmetry; apply S0; reflexivity|exact EV].
  - destruct (Z.ltb_spec z 0) as [ZN|ZP].
    + assert (INV' : forall i y, nth_error (l_words l) i = Some y -> (Z.of_nat i < low \/ mid - 1 < Z.of_nat i)%Z -> ww_str y <> w).
      { intros i y EY [K|K]; [apply (INV i y EY); lia|]. intros Q. apply (SN ZN (ww_str y)); [|apply (sorted_nth e _ SO WL (Z.to_nat mid) i); [lia|assumption..]|congruence].
        rewrite Forall_forall in WL. apply WL. eapply nth_error_In, EY. }
      destruct (Z.leb_spec low (mid - 1)).
      * apply IH; try lia. exact INV'.
      * eexists. split; [reflexivity|]. right. split; [|reflexivity]. apply (NONE low (mid - 1)%Z); [lia|exact INV'].
    + assert (INV' : forall i y, nth_error (l_words l) i = Some y -> (Z.of_nat i < mid + 1 \/ high < Z.of_nat i)%Z -> ww_str y <> w).
      { intros i y EY [K|K]; [|apply (INV i y EY); lia]. intros Q. apply (SP ltac:(lia) (ww_str y)); [|apply (sorted_nth e _ SO WL i (Z.to_nat mid)); [lia|assumption..]|congruence].
        rewrite Forall_forall in WL. apply WL. eapply nth_error_In, EY. }
      destruct (Z.leb_spec (mid + 1) high).
      * apply IH; try lia. exact INV'.
      * eexists. split; [reflexivity|]. right. split; [|reflexivity]. apply (NONE (mid + 1)%Z high); [lia|exact INV'].
Qed.
