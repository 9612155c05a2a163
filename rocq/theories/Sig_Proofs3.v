(** The matrices. *)
From Coq Require Import String List ZArith NArith Arith Bool QArith Lia.
From Verif Require Import Base Store_Model Sig_Model Sig_Spec Sig_Proofs1 Sig_Proofs2.
Import ListNotations.
Local Open Scope res_scope.
Local Open Scope nat_scope.

(** ** Trimming *)
Lemma ltrim_blanks : forall n s, ltrim (blanks n ++ s) = ltrim s.
Proof. induction n as [|n IH]; intros s; [reflexivity|]. cbn. apply IH. Qed.
Lemma rev_blanks : forall n, rev (blanks n) = blanks n.
Proof.
  induction n as [|n IH]; [reflexivity|]. unfold blanks in *. cbn [repeat rev]. rewrite IH.
  change [32%N] with (repeat 32%N 1). rewrite <- repeat_app, Nat.add_comm. reflexivity.
Qed.
Lemma ltrim_id : forall s, (forall c r, s = c :: r -> c <> 32%N) -> ltrim s = s.
Proof. intros [|c r] H; [reflexivity|]. cbn. destruct (N.eqb_spec c 32) as [->|K]; [exfalso; exact (H _ _ eq_refl eq_refl)|reflexivity]. Qed.
Lemma trim_pad : forall f g s, word s \/ s = [] -> trim (blanks f ++ s ++ blanks g) = s.
Proof.
  intros f g s H. unfold trim. rewrite ltrim_blanks. destruct H as [H| ->].
  - assert (NB : forall x, In x s -> x <> 32%N) by (intros x Hx ->; exact (word_no s 32%N H ltac:(cbn; tauto) Hx)).
    rewrite (ltrim_id (s ++ blanks g)).
    + rewrite rev_app_distr, rev_blanks, ltrim_blanks, ltrim_id, rev_involutive; [reflexivity|].
      intros c r E. apply NB. apply in_rev. rewrite E. left. reflexivity.
    + intros c r E. destruct s as [|x s']; [destruct H; congruence|]. cbn in E. injection E as <- _. apply NB. left. reflexivity.
  - cbn [app]. rewrite <- (app_nil_r (blanks g)), ltrim_blanks. reflexivity.
Qed.

(** ** Boxes *)
Lemma no_bar_blanks : forall n, ~ In 124%N (blanks n).
Proof. intros n K. apply repeat_spec in K. discriminate K. Qed.
Lemma no_bar : forall s, word s \/ s = [] -> ~ In 124%N s.
Proof. intros s [H| ->]; [apply word_no; cbn; tauto|intros []]. Qed.
(** a box: a text between blanks and a bar *)
Definition box (s l : str) : Prop := exists f g, l = blanks f ++ s ++ blanks g ++ [124%N].
Lemma boxes_ok : forall k ss ls, Forall2 (fun s l => (word s \/ s = []) /\ box s l) ss ls ->
  boxes (blanks k ++ [124%N] ++ concat ls) = ss.
Proof.
  intros k ss ls H. unfold boxes. cbn [app]. rewrite split_sep by apply no_bar_blanks. cbn [tl].
  assert (G : exists us, split 124%N (concat ls) = us ++ [[]] /\ map trim us = ss).
  { induction H as [|s l ss ls [W (f & g & ->)] _ (us & IH & IM)]; [exists []; split; reflexivity|].
    exists ((blanks f ++ s ++ blanks g) :: us). split; [|cbn; rewrite trim_pad by exact W; rewrite IM; reflexivity].
    cbn [concat]. rewrite <- !app_assoc. cbn [app]. rewrite !app_assoc. rewrite split_sep; [rewrite <- !app_assoc, IH; reflexivity|].
    intros K. apply in_app_or in K. destruct K as [K|K]; [apply in_app_or in K; destruct K as [K|K]|];
      [exact (no_bar_blanks _ K)|exact (no_bar _ W K)|exact (no_bar_blanks _ K)]. }
  destruct G as (us & -> & Hm). rewrite removelast_last. exact Hm.
Qed.
Lemma box_boxed : forall m s, box s (boxed m s).
Proof.
  intros m s. unfold boxed, right. exists (S (Z.to_nat (m - slen s))), 1. cbn [blanks repeat app]. rewrite <- app_assoc. reflexivity.
Qed.
Lemma boxeds : forall m ss, Forall (fun s => word s \/ s = []) ss -> Forall2 (fun s l => (word s \/ s = []) /\ box s l) ss (map (boxed m) ss).
Proof. intros m ss H. induction H as [|s ss H _ IH]; constructor; [split; [exact H|apply box_boxed]|exact IH]. Qed.
Lemma boxed_length : forall m s, (slen s <= m)%Z -> Z.of_nat (length (boxed m s)) = (m + 3)%Z.
Proof. intros m s H. unfold boxed, right, blanks, slen in *. rewrite !app_length, repeat_length. cbn. lia. Qed.
Lemma boxed_line : forall m s, one_line s -> one_line (boxed m s).
Proof.
  intros m s H. unfold boxed, right. repeat apply one_line_app; auto using one_line_blanks.
  - apply one_line_cons; [discriminate|apply one_line_nil].
  - apply one_line_cons; [discriminate|]. apply one_line_cons; [discriminate|apply one_line_nil].
Qed.

(** ** The grid *)
Lemma grid_text : forall n pre g, Forall one_line pre -> Forall one_line g -> length g = 2 * n + 3 -> grid n (text (pre ++ g)) = g.
Proof.
  intros n pre g A B L. unfold grid. rewrite split_text by (apply Forall_app; split; assumption). rewrite removelast_last, app_length, L.
  replace (length pre + (2 * n + 3) - (2 * n + 3)) with (length pre) by lia. rewrite skipn_app, skipn_all, Nat.sub_diag. reflexivity.
Qed.
Lemma seconds_pairs : forall (ps : list (list str)) l, Forall (fun p => length p = 2) ps -> seconds (concat ps ++ [l]) = map (fun p => nth 1 p []) ps.
Proof.
  induction ps as [|p ps IH]; intros l H; [reflexivity|]. inversion H as [|? ? H1 H2]; subst.
  destruct p as [|a [|b [|? ?]]]; try discriminate H1. cbn [concat app seconds map nth]. f_equal. apply IH, H2.
Qed.
Lemma pairs_length : forall (ps : list (list str)), Forall (fun p => length p = 2) ps -> length (concat ps) = 2 * length ps.
Proof. induction 1 as [|p ps H _ IH]; [reflexivity|]. cbn [concat length]. rewrite app_length, IH, H. lia. Qed.
Lemma numbered_length : forall names, length (numbered names) = length names.
Proof. intros. rewrite numbered_map, map_length, seq_length. reflexivity. Qed.

(** the texts of a row *)
Definition entry (names : list str) (w : nat -> nat -> Z) (s t : nat) : str := if t <=? s then [] else against names w s t.
Lemma entry_ok : forall names w s t, Forall word names -> s < length names -> t < length names ->
  word (entry names w s t) \/ entry names w s t = [].
Proof. intros names w s t W A B. unfold entry. destruct (t <=? s); [right; reflexivity|left; apply against_word; assumption]. Qed.
Lemma entry_line : forall names w s t, Forall word names -> s < length names -> t < length names -> one_line (entry names w s t).
Proof. intros names w s t W A B. destruct (entry_ok names w s t W A B) as [H| ->]; [apply word_line, H|apply one_line_nil]. Qed.
Lemma entry_short : forall names w s t, s < length names -> t < length names -> (4 <= longest 0 names)%Z -> (slen (entry names w s t) <= longest 0 names)%Z.
Proof.
  intros names w s t A B M. unfold entry. destruct (t <=? s); [cbn; lia|]. unfold against, better.
  destruct (w _ _); [cbn; lia| |]; apply (proj2 (longest_fold names 0)), nth_In; lia.
Qed.
Lemma concat_lengths : forall k (ls : list str), Forall (fun l => Z.of_nat (length l) = k) ls -> Z.of_nat (length (concat ls)) = (k * Z.of_nat (length ls))%Z.
Proof. intros k ls H. induction H as [|l ls H _ IH]; [cbn; lia|]. cbn [concat length]. rewrite app_length, Nat2Z.inj_add, IH, H. lia. Qed.
Lemma blanks_length : forall n, length (blanks n) = n.
Proof. intros. apply repeat_length. Qed.

(** ** The matrix of one test *)
Lemma matrix_ok : forall title formula block names w ls, Forall word names -> one_line title -> one_line formula -> one_line block ->
  matrix title formula block names w = Ok ls ->
  let g := grid (length names) (text ls) in
  boxes (nth 1 g []) = [] :: names
  /\ map boxes (seconds (skipn 2 g)) = map (matrix_row names w) (seq 0 (length names))
  /\ ((4 <= longest 0 names)%Z -> exists k, Forall (fun l => length l = k) g).
Proof.
  intros title formula block names w ls W T1 T2 T3 H g. unfold matrix in H. cbv zeta in H. next H.
  match type of H with (if ?b then _ else _) = _ => destruct b; [discriminate H|] end.
  next H. next H. next H. apply ok_inj in H. rename a into l1, a0 into l2, a1 into l3, a2 into ind.
  destruct (centre_nil _ _ E2) as [k ->]. clear E2. set (m := longest 0 names) in *. set (n := length names) in *.
  set (line := blanks k ++ [124%N] ++ dashes ((3 + m) * (Z.of_nat n + 1) - 1) ++ [124%N]) in *.
  set (spacer := blanks k ++ [124%N] ++ concat (map (fun _ : str => dashes (3 + m - 1) ++ [43%N]) names) ++ dashes (3 + m - 1) ++ [124%N]) in *.
  set (head := blanks k ++ [124%N] ++ boxed m [] ++ flat_map (boxed m) names) in *.
  set (row := fun s => blanks k ++ [124%N] ++ boxed m (nth s names []) ++ concat (map (fun t => boxed m (entry names w s t)) (seq 0 n))).
  assert (ROWS : forall s, s < n -> (blanks k ++ [124%N] ++ boxed m (nth s names []) ++ flat_map (fun o : nat * str => boxed m (if fst o <=? s then [] else verdict (w s (fst o)) (nth s names []) (snd o))) (numbered names)) = row s).
  { intros s Hs. unfold row. do 3 f_equal. rewrite numbered_map, flat_map_concat_map, map_map. f_equal. apply map_ext. intros t. cbn [fst snd]. unfold entry.
    destruct (Nat.leb_spec t s); [reflexivity|]. f_equal. rewrite <- verdict_against by lia. destruct (Nat.ltb_spec s t); [reflexivity|lia]. }
  assert (Hls : ls = ([l1; l2; l3; []]) ++ line :: head :: concat (map (fun s => [spacer; row s]) (seq 0 n)) ++ [line]).
  { rewrite <- H. cbn [app]. do 6 f_equal. f_equal. rewrite numbered_map, flat_map_concat_map, map_map. f_equal. apply map_ext_in. intros s Hs. apply in_seq in Hs. cbn [fst snd]. do 2 f_equal. rewrite <- (ROWS s) by lia. rewrite numbered_map. reflexivity. }
  clear H ROWS.
  assert (IN : forall s, s < n -> In (nth s names []) names) by (intros s Hs; apply nth_In, Hs).
  assert (WN : forall s, s < n -> word (nth s names [])) by (intros s Hs; rewrite Forall_forall in W; apply W, IN, Hs).
  assert (ONE : Forall one_line (line :: head :: concat (map (fun s => [spacer; row s]) (seq 0 n)) ++ [line])).
  { assert (L : one_line line) by (repeat apply one_line_app; auto using one_line_blanks, dashes_line; apply one_line_cons; auto using one_line_nil; discriminate).
    assert (D : forall a, one_line a -> one_line (blanks k ++ [124%N] ++ a)) by (intros a Ha; apply one_line_app; [apply one_line_blanks|]; apply one_line_cons; [discriminate|exact Ha]).
    constructor; [exact L|]. constructor.
    - apply D, one_line_app; [apply boxed_line, one_line_nil|]. rewrite flat_map_concat_map. apply one_line_concat, Forall_forall. intros x Hx. apply in_map_iff in Hx. destruct Hx as (y & <- & Hy).
      apply boxed_line, word_line. rewrite Forall_forall in W. apply W, Hy.
    - apply Forall_app. split; [|constructor; [exact L|constructor]]. apply Forall_concat, Forall_forall. intros p Hp. apply in_map_iff in Hp. destruct Hp as (s & <- & Hs). apply in_seq in Hs.
      constructor; [|constructor; [|constructor]].
      + apply D, one_line_app; [|apply one_line_app; [apply dashes_line|apply one_line_cons; [discriminate|apply one_line_nil]]]. apply one_line_concat, Forall_forall. intros x Hx. apply in_map_iff in Hx. destruct Hx as (y & <- & _).
        apply one_line_app; [apply dashes_line|apply one_line_cons; [discriminate|apply one_line_nil]].
      + apply D, one_line_app; [apply boxed_line, word_line, WN; lia|]. apply one_line_concat, Forall_forall. intros x Hx. apply in_map_iff in Hx. destruct Hx as (t & <- & Ht). apply in_seq in Ht.
        apply boxed_line, entry_line; [exact W|lia|lia]. }
  assert (PRE : Forall one_line [l1; l2; l3; []]).
  { constructor; [apply (centre_line _ _ _ E T1)|]. constructor; [apply (centre_line _ _ _ E0); repeat apply one_line_app; auto; apply bytes_line; reflexivity|].
    constructor; [apply (centre_line _ _ _ E1); apply bytes_line; reflexivity|]. constructor; [apply one_line_nil|constructor]. }
  assert (P2 : Forall (fun p : list str => length p = 2) (map (fun s => [spacer; row s]) (seq 0 n))).
  { apply Forall_forall. intros p Hp. apply in_map_iff in Hp. destruct Hp as (s & <- & _). reflexivity. }
  assert (G : g = line :: head :: concat (map (fun s => [spacer; row s]) (seq 0 n)) ++ [line]).
  { unfold g. rewrite Hls. apply grid_text; [exact PRE|exact ONE|]. cbn [length]. rewrite app_length, pairs_length by exact P2. rewrite map_length, seq_length. cbn [length]. lia. }
  rewrite G. split; [|split].
  - cbn [nth]. unfold head. change (boxed m [] ++ flat_map (boxed m) names) with (flat_map (boxed m) ([] :: names)). rewrite flat_map_concat_map. apply boxes_ok.
    apply boxeds. constructor; [right; reflexivity|]. apply Forall_forall. intros x Hx. left. rewrite Forall_forall in W. apply W, Hx.
  - cbn [skipn]. rewrite seconds_pairs by exact P2. rewrite !map_map. apply map_ext_in. intros s Hs. apply in_seq in Hs. cbn [nth]. unfold row, matrix_row.
    fold n. change (map (fun t => if t <=? s then [] else against names w s t) (seq 0 n)) with (map (entry names w s) (seq 0 n)).
    rewrite <- map_map. change (boxed m (nth s names []) ++ concat (map (boxed m) (map (entry names w s) (seq 0 n)))) with (concat (map (boxed m) (nth s names [] :: map (entry names w s) (seq 0 n)))).
    apply boxes_ok, boxeds. constructor; [left; apply WN; lia|]. apply Forall_forall. intros x Hx. apply in_map_iff in Hx. destruct Hx as (t & <- & Ht). apply in_seq in Ht. apply entry_ok; [exact W|lia|lia].
  - intros M. exists (k + Z.to_nat ((m + 3) * (Z.of_nat n + 1) + 1)).
    assert (LEN : forall a : str, Z.of_nat (length a) = ((m + 3) * (Z.of_nat n + 1))%Z -> length (blanks k ++ [124%N] ++ a) = k + Z.to_nat ((m + 3) * (Z.of_nat n + 1) + 1)).
    { intros a Ha. rewrite !app_length, blanks_length. cbn [length]. lia. }
    assert (LL : length line = k + Z.to_nat ((m + 3) * (Z.of_nat n + 1) + 1)).
    { apply LEN. unfold dashes. rewrite app_length, repeat_length. cbn [length]. nia. }
    constructor; [exact LL|]. constructor.
    + apply LEN. rewrite app_length, Nat2Z.inj_add, boxed_length by (cbn; lia). rewrite flat_map_concat_map, (concat_lengths (m + 3)).
      * rewrite map_length. unfold n. lia.
      * apply Forall_forall. intros x Hx. apply in_map_iff in Hx. destruct Hx as (y & <- & Hy). apply boxed_length. apply (proj2 (longest_fold names 0)), Hy.
    + apply Forall_app. split; [|constructor; [exact LL|constructor]]. apply Forall_concat, Forall_forall. intros p Hp. apply in_map_iff in Hp. destruct Hp as (s & <- & Hs). apply in_seq in Hs.
      constructor; [|constructor; [|constructor]].
      * apply LEN. rewrite app_length, Nat2Z.inj_add, (concat_lengths (m + 3)).
        -- unfold dashes. rewrite map_length, app_length, repeat_length. cbn [length]. fold n. lia.
        -- apply Forall_forall. intros x Hx. apply in_map_iff in Hx. destruct Hx as (y & <- & Hy). unfold dashes. rewrite app_length, repeat_length. cbn [length]. lia.
      * apply LEN. rewrite app_length, Nat2Z.inj_add, boxed_length by (apply (proj2 (longest_fold names 0)), IN; lia). rewrite (concat_lengths (m + 3)).
        -- rewrite map_length, seq_length. lia.
        -- apply Forall_forall. intros x Hx. apply in_map_iff in Hx. destruct Hx as (t & <- & Ht). apply in_seq in Ht. apply boxed_length, entry_short; [lia|lia|exact M].
Qed.
