(** The report of a system. *)
From Coq Require Import String List ZArith NArith Arith Bool QArith Lia.
From Verif Require Import Base Store_Model Sig_Model Sig_Spec Sig_Proofs1.
Import ListNotations.
Local Open Scope res_scope.
Local Open Scope nat_scope.

Lemma rbind_ok : forall {A B} (x : res A) (f : A -> res B) y, rbind x f = Ok y -> exists a, x = Ok a /\ f a = Ok y.
Proof. intros A B [a| | |] f y H; try discriminate H. exists a. split; [reflexivity|exact H]. Qed.
Ltac next H := let a := fresh "a" in let E := fresh "E" in apply rbind_ok in H; destruct H as (a & E & H).
Lemma ok_inj : forall {A} (a b : A), Ok a = Ok b -> a = b.
Proof. intros A a b H. congruence. Qed.
Lemma bytes_line : forall s, existsb (N.eqb 10) (bytes s) = false -> one_line (bytes s).
Proof.
  intros s H K. assert (X : existsb (N.eqb 10) (bytes s) = true); [|congruence]. apply existsb_exists. exists 10%N. split; [exact K|reflexivity].
Qed.
Lemma dashes_line : forall n, one_line (dashes n).
Proof. intros. apply one_line_repeat. discriminate. Qed.
Lemma wide_nonnil : forall m s, wide m s <> [].
Proof. intros m s H. unfold wide in H. discriminate. Qed.
Lemma until_app : forall a b, Forall (fun l : str => l <> []) a -> until_empty (a ++ [] :: b) = a.
Proof. induction 1 as [|x l H _ IH]; cbn; [reflexivity|]. destruct x; [congruence|]. f_equal. exact IH. Qed.

(** a row of the table *)
Lemma wides_words : forall m cs ws, Forall2 (fun w c => exists c0, c = wide m c0 /\ words c0 = [w]) ws cs -> words (concat cs) = ws.
Proof.
  intros m cs ws H. induction H as [|w c ws cs (c0 & -> & Hc) _ IH]; [reflexivity|]. cbn [concat]. rewrite wide_words, Hc, IH. reflexivity.
Qed.
Lemma sts_row_ok : forall m tests names s t l, Forall word names -> s < length names -> t < length names -> s <> t ->
  sts_row m tests (s, nth s names []) (t, nth t names []) = Ok l ->
  words l = nth t names [] :: map (fun k => against names (t_win k) s t) tests /\ one_line l /\ l <> []
  /\ ((forall x, In x names -> slen x <= m)%Z -> (4 <= m)%Z -> Z.of_nat (length l) = ((m + 2) * (Z.of_nat (length tests) + 1))%Z).
Proof.
  intros m tests names s t l W Hs Ht Hst H. unfold sts_row in H. next H. apply ok_inj in H; rewrite <- H in *; clear H. apply each_inv in E. rename a into cs.
  assert (Wt : word (nth t names [])) by (rewrite Forall_forall in W; apply W, nth_In, Ht).
  assert (F : Forall2 (fun k c => exists c0, c = wide m c0 /\ words c0 = [against names (t_win k) s t] /\ one_line c0
               /\ ((forall x, In x names -> slen x <= m)%Z -> (4 <= m)%Z -> Z.of_nat (length c) = m + 2)%Z) tests cs).
  { clear - E W Hs Ht Hst. induction E as [|k c ks cs Hk _ IH]; constructor; [|exact IH]. rewrite verdict_against in Hk by exact Hst.
    apply rbind_ok in Hk. destruct Hk as (c0 & E0 & Hk). apply ok_inj in Hk. subst c.
    pose proof (against_word names (t_win k) s t W Hs Ht) as Aw. exists c0. split; [reflexivity|]. split; [rewrite (centre_words _ _ _ E0); apply words_word, Aw|].
    split; [exact (centre_line _ _ _ E0 (word_line _ Aw))|]. intros L M. apply wide_length. destruct (centre_inv _ _ _ E0) as (f & g & _ & Q & _).
    unfold slen at 1. rewrite Q; [lia|]. unfold against, better. destruct (t_win k _ _); [cbn; lia| |]; apply L, nth_In; lia. }
  split; [rewrite wide_words, (words_word _ Wt); cbn [app]; f_equal; apply (wides_words m)|split].
  - clear - F. induction F as [|k c ks cs (c0 & A & B & _) _ IH]; constructor; [exists c0; auto|exact IH].
  - apply one_line_app; [apply wide_line, word_line, Wt|]. apply one_line_concat. apply (F2_Forall _ _ _ _ F). intros k c _ (c0 & -> & _ & B & _). apply wide_line, B.
  - split; [intros K; apply app_eq_nil in K; destruct K as [K _]; exact (wide_nonnil _ _ K)|]. intros L M.
    rewrite app_length, Nat2Z.inj_add, wide_length by (apply L, nth_In, Ht).
    assert (X : Z.of_nat (length (concat cs)) = ((m + 2) * Z.of_nat (length tests))%Z); [|lia].
    clear - F L M. induction F as [|k c ks cs (c0 & _ & _ & _ & B) _ IH]; [cbn; lia|]. cbn [concat length]. rewrite app_length, Nat2Z.inj_add, IH, (B L M). lia.
Qed.

(** the legend *)
Lemma legend_row : forall w d s x y r, one_line x -> one_line y ->
    rbind (centre [] (Z.quot (w - (d + 5 + s)) 2)) (fun ind => rbind (centre x d) (fun a => rbind (centre [] 5) (fun g => rbind (centre y s) (fun b => Ok (ind ++ a ++ g ++ b))))) = Ok r ->
    words r = words x ++ words y /\ one_line r.
Proof.
  intros w d s x y r Hx Hy R. next R. next R. next R. next R. apply ok_inj in R. subst r.
  destruct (centre_nil _ _ E) as [k1 ->]. vm_compute in E1. apply ok_inj in E1. subst a1.
  change [32%N; 32%N; 32%N; 32%N; 32%N] with (32%N :: blanks 4).
  rewrite words_blanks. cbn [app]. rewrite words_app, words_blanks, (centre_words _ _ _ E0), (centre_words _ _ _ E2).
  split; [reflexivity|]. repeat apply one_line_app; eauto using one_line_blanks, centre_line.
  apply one_line_cons; [discriminate|]. apply one_line_app; eauto using one_line_blanks, centre_line.
Qed.
Lemma sts_legend_ok : forall w d s tests ls, Forall (fun t => one_line (t_desc t) /\ word (t_id t)) tests -> (slen (bytes "Abbrev.") <= s)%Z ->
  sts_legend w d s tests = Ok ls ->
  exists h1 h2 rows, ls = h1 :: h2 :: rows /\ map words rows = map (fun t => words (t_desc t) ++ [t_id t]) tests /\ Forall one_line ls.
Proof.
  intros w d s tests ls T Hlen H. unfold sts_legend in H. cbv zeta in H.
  next H. next H. next H. next H. apply ok_inj in H; rewrite <- H in *; clear H.
  rename a into h, a0 into ind, a1 into g, a2 into rows.
  exists h, (ind ++ dashes d ++ g ++ dashes s), rows. split; [reflexivity|]. apply each_inv in E2. split.
  - symmetry. symmetry. apply (F2_map _ _ _ _ _ E2). intros t r Ht R. rewrite Forall_forall in T. destruct (T t Ht) as [T1 T2].
    destruct (legend_row _ _ _ _ _ _ T1 (word_line _ T2) R) as [R1 _]. rewrite R1, (words_word _ T2). reflexivity.
  - constructor; [|constructor].
    + apply (legend_row _ _ _ _ _ _ (bytes_line "Test Name" eq_refl) (bytes_line "Abbrev." eq_refl) E).
    + repeat apply one_line_app; auto using dashes_line; eapply centre_line; eauto using one_line_nil.
    + apply (F2_Forall _ _ _ _ E2). intros t r Ht R. rewrite Forall_forall in T. destruct (T t Ht) as [T1 T2]. apply (legend_row _ _ _ _ _ _ T1 (word_line _ T2) R).
Qed.

(** the whole *)
Lemma for_the_line : forall s, one_line s -> one_line (for_the s).
Proof. intros s H. unfold for_the. repeat apply one_line_app; auto; apply bytes_line; reflexivity. Qed.
Lemma notes_line : Forall one_line notes.
Proof. unfold notes. repeat (apply Forall_cons; [first [apply one_line_nil|apply bytes_line; reflexivity]|]). constructor. Qed.

Lemma sts_lines_ok : forall testname names tests s ls, Forall word names -> one_line testname ->
  Forall (fun t => one_line (t_desc t) /\ word (t_id t)) tests -> s < length names ->
  sts_lines testname names tests (s, nth s names []) = Ok ls ->
  let r := text ls in
  words (nth 2 (split 10%N r) []) = [nth s names []]
  /\ headings r = map t_id tests
  /\ entries r = map (fun t => nth t names [] :: map (fun k => against names (t_win k) s t) tests) (others (length names) s)
  /\ legend (length tests) r = map (fun t => words (t_desc t) ++ [t_id t]) tests
  /\ (4 <= longest 0 names -> (forall t, In t tests -> slen (t_id t) <= longest 0 names) ->
      Forall (fun l => Z.of_nat (length l) = (longest 0 names + 2) * (Z.of_nat (length tests) + 1)) (table_lines r))%Z.
Proof.
  intros testname names tests s ls W TN T Hs H r. unfold sts_lines in H. cbv zeta in H. cbn [fst snd] in H.
  set (m := longest 0 names) in *. set (w := sts_width testname names tests) in *.
  next H. next H. destruct (200 <=? slen (nth s names []))%Z; [discriminate H|]. next H. next H. next H. next H. next H. apply ok_inj in H; rename H into Hls.
  rename a into l1, a0 into l2, a1 into l3, a2 into l4, a3 into ids, a4 into rows, a5 into leg.
  assert (Ws : word (nth s names [])) by (rewrite Forall_forall in W; apply W, nth_In, Hs).
  (* rows *)
  rewrite numbered_others in E4. apply each_inv in E4.
  assert (R : Forall2 (fun t l => words l = nth t names [] :: map (fun k => against names (t_win k) s t) tests /\ one_line l /\ l <> []
             /\ ((4 <= m)%Z -> Z.of_nat (length l) = ((m + 2) * (Z.of_nat (length tests) + 1))%Z)) (others (length names) s) rows).
  { assert (O : Forall (fun t => t < length names /\ s <> t) (others (length names) s)).
    { apply Forall_forall. intros t Ht. apply filter_In in Ht. destruct Ht as [A B]. apply in_seq in A. split; [lia|]. intros ->. rewrite Nat.eqb_refl in B. discriminate B. }
    clear Hls. revert rows E4. induction O as [|t o [O1 O2] _ IH]; intros rows E4; inversion E4 as [|? ? ? rs Hr Hrs]; subst; constructor; [|apply IH; exact Hrs].
    destruct (sts_row_ok _ _ _ _ _ _ W Hs O1 O2 Hr) as (A & B & C & D). split; [exact A|]. split; [exact B|]. split; [exact C|]. intros M. apply D; [|exact M].
    intros x Hx. apply (proj2 (longest_fold names 0)), Hx. }
  (* headings *)
  apply each_inv in E3.
  assert (I : Forall2 (fun t c => exists c0, c = wide m c0 /\ words c0 = [t_id t] /\ one_line c0 /\ ((slen (t_id t) <= m)%Z -> Z.of_nat (length c) = (m + 2)%Z)) tests ids).
  { clear - E3 T. induction E3 as [|t c ts cs Hc _ IH]; constructor.
    - inversion T as [|? ? [T1 T2] _]; subst. next Hc. apply ok_inj in Hc; rewrite <- Hc in *; clear Hc. exists a. split; [reflexivity|]. split; [rewrite (centre_words _ _ _ E); apply words_word, T2|].
      split; [exact (centre_line _ _ _ E (word_line _ T2))|]. intros L. apply wide_length. destruct (centre_inv _ _ _ E) as (f & g & _ & Q & _). unfold slen at 1. rewrite Q; [lia|exact L].
    - apply IH. inversion T; assumption. }
  destruct (sts_legend_ok _ _ _ _ _ T ltac:(apply (proj1 (longest_fold (map t_id tests) 7))) E5) as (h1 & h2 & lrows & -> & L1 & L2).
  set (hd1 := wide m [] ++ concat ids) in *. set (hd2 := wide m [] ++ concat (map (fun _ : test => [32%N] ++ dashes m ++ [32%N]) tests)) in *.
  assert (LINES : Forall one_line ls).
  { rewrite <- Hls. repeat (apply Forall_app; split).
    - repeat (apply Forall_cons; [first [apply one_line_nil|idtac]|]); [| | | |constructor].
      + apply (centre_line _ _ _ E). apply bytes_line. reflexivity.
      + apply (centre_line _ _ _ E0). apply bytes_line. reflexivity.
      + apply (centre_line _ _ _ E1). apply word_line, Ws.
      + apply (centre_line _ _ _ E2). apply for_the_line, TN.
    - constructor; [|constructor]. apply one_line_app; [apply wide_line, one_line_nil|]. apply one_line_concat. apply (F2_Forall _ _ _ _ I). intros t c _ (c0 & -> & _ & B & _). apply wide_line, B.
    - constructor; [|constructor]. apply one_line_app; [apply wide_line, one_line_nil|]. apply one_line_concat. apply Forall_forall. intros x Hx. apply in_map_iff in Hx. destruct Hx as (t & <- & _).
      repeat apply one_line_app; auto using dashes_line; apply one_line_cons; auto using one_line_nil; discriminate.
    - apply (F2_Forall _ _ _ _ R). intros t c _ (_ & B & _). exact B.
    - repeat (apply Forall_cons; [apply one_line_nil|]). constructor.
    - exact L2.
    - apply notes_line. }
  assert (SP : split 10%N r = ls ++ [[]]) by (apply split_text, LINES).
  assert (TL : table_lines r = hd1 :: hd2 :: rows).
  { unfold table_lines. rewrite SP, <- Hls. cbn [app skipn]. rewrite <- !app_assoc. cbn [app].
    change (hd1 :: hd2 :: rows) with ([hd1; hd2] ++ rows).
    match goal with |- until_empty (hd1 :: hd2 :: rows ++ [] :: ?x) = _ => change (hd1 :: hd2 :: rows ++ [] :: x) with (([hd1; hd2] ++ rows) ++ [] :: x) end.
    apply until_app. apply Forall_app. split.
    - constructor; [|constructor; [|constructor]]; intros K; apply app_eq_nil in K; exact (wide_nonnil _ _ (proj1 K)).
    - apply (F2_Forall _ _ _ _ R). intros t c _ (_ & _ & B & _). exact B. }
  split; [|split; [|split; [|split]]].
  - rewrite SP, <- Hls. cbn [app nth]. rewrite (centre_words _ _ _ E1). apply words_word, Ws.
  - unfold headings. rewrite TL. cbn [hd]. unfold hd1. rewrite wide_words. cbn [app]. change (words []) with (@nil str). cbn [app].
    rewrite (wides_words m _ (map t_id tests)); [reflexivity|]. clear - I. induction I as [|t c ts cs (c0 & A & B & _) _ IH]; constructor; [exists c0; auto|exact IH].
  - unfold entries. rewrite TL. cbn [skipn]. apply (F2_map _ _ _ _ _ R). intros t l _ (A & _). exact A.
  - unfold legend. rewrite SP. rewrite app_length. cbn [length]. rewrite <- L1.
    assert (LR : length lrows = length tests) by (apply (f_equal (@length _)) in L1; rewrite !map_length in L1; exact L1).
    set (pre := [l1; l2; l3; l4; []] ++ [hd1] ++ [hd2] ++ rows ++ [[]; []; []] ++ [h1; h2]).
    assert (LS : ls ++ [[]] = pre ++ lrows ++ notes ++ [[]]).
    { rewrite <- Hls. unfold pre. cbn [app]. rewrite <- !app_assoc. cbn [app]. rewrite <- app_assoc. reflexivity. }
    assert (LL : length ls + 1 = length pre + length lrows + 5).
    { apply (f_equal (@length _)) in LS. rewrite !app_length in LS. cbn [length notes] in LS. lia. }
    rewrite LS. replace (length ls + 1 - 5 - length tests) with (length pre) by lia.
    rewrite skipn_app, skipn_all, Nat.sub_diag. cbn [app skipn]. rewrite <- LR, firstn_app, firstn_all, Nat.sub_diag. cbn [firstn]. rewrite app_nil_r. reflexivity.
  - intros M IL. rewrite TL.
    assert (W0 : Z.of_nat (length (wide m [])) = (m + 2)%Z) by (apply wide_length; cbn; lia).
    constructor; [|constructor].
    + unfold hd1. rewrite app_length, Nat2Z.inj_add, W0.
      assert (X : Z.of_nat (length (concat ids)) = ((m + 2) * Z.of_nat (length tests))%Z); [|lia].
      clear - I IL. induction I as [|t c ts cs (c0 & _ & _ & _ & B) _ IH]; [cbn; lia|]. cbn [concat length]. rewrite app_length, Nat2Z.inj_add, IH, B; [lia| |].
      * apply IL. left. reflexivity.
      * intros t' Ht'. apply IL. right. exact Ht'.
    + unfold hd2. rewrite app_length, Nat2Z.inj_add, W0.
      assert (X : Z.of_nat (length (concat (map (fun _ : test => [32%N] ++ dashes m ++ [32%N]) tests))) = ((m + 2) * Z.of_nat (length tests))%Z); [|lia].
      clear - M. induction tests as [|t ts IH]; [cbn; lia|]. cbn [map concat length]. rewrite app_length, Nat2Z.inj_add, IH. unfold dashes. rewrite !app_length, repeat_length. cbn [length]. lia.
    + apply (F2_Forall _ _ _ _ R). intros t c _ (_ & _ & _ & B). apply B, M.
Qed.

(** ** The name of the file *)
Lemma base_app : forall a b, base (a ++ 47%N :: b) = base b.
Proof.
  intros a b. unfold base. rewrite split_app. pose proof (split_nonnil 47%N b) as K. destruct (split 47%N b) as [|h t]; [congruence|].
  clear. induction (split 47%N a) as [|x l IH]; [reflexivity|]. cbn [app]. rewrite <- IH. destruct (l ++ h :: t) eqn:E; [destruct l; discriminate E|reflexivity].
Qed.
Lemma strrchr_base : forall s, match strrchr s with
  | Some t => t = 47%N :: base s /\ existsb (N.eqb 47) s = true
  | None => base s = s /\ existsb (N.eqb 47) s = false end.
Proof.
  induction s as [|c s IH]; [split; reflexivity|]. cbn [strrchr existsb]. destruct (strrchr s) as [t|] eqn:E.
  - destruct IH as [-> IH]. rewrite IH. split; [|apply orb_true_r]. f_equal.
    assert (K : exists a b, s = a ++ 47%N :: b).
    { clear - IH. induction s as [|x s IHs]; [discriminate IH|]. cbn [existsb] in IH. destruct (47 =? x)%N eqn:Ex; [apply N.eqb_eq in Ex; subst; exists [], s; reflexivity|].
      cbn [orb] in IH. destruct (IHs IH) as (a & b & ->). exists (x :: a), b. reflexivity. }
    destruct K as (a & b & ->). change (c :: a ++ 47%N :: b) with ((c :: a) ++ 47%N :: b). rewrite !base_app. reflexivity.
  - destruct IH as [B IH]. destruct (N.eqb_spec c 47) as [->|Hc].
    + split; [|reflexivity]. f_equal. change (47%N :: s) with ([] ++ 47%N :: s). rewrite base_app. symmetry. exact B.
    + assert (F : existsb (N.eqb 47) (c :: s) = false) by (cbn [existsb]; rewrite IH; destruct (N.eqb_spec 47 c); [congruence|reflexivity]).
      split; [|exact F]. unfold base. rewrite split_none; [reflexivity|]. intros K.
      assert (X : existsb (N.eqb 47) (c :: s) = true); [|congruence]. apply existsb_exists. exists 47%N. split; [exact K|reflexivity].
Qed.
Lemma sts_name_file : forall outdir name, sts_name outdir name = report_file outdir name.
Proof.
  intros [|c o] name; [reflexivity|]. unfold sts_name, report_file. pose proof (strrchr_base name) as H. destruct (strrchr name) as [t|].
  - destruct H as [-> ->]. reflexivity.
  - destruct H as [-> ->]. reflexivity.
Qed.
