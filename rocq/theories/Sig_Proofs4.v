(** The matrix of the matched pairs test, and when the reports are printed. *)
From Coq Require Import String List ZArith NArith Arith Bool QArith Lia.
From Verif Require Import Base Store_Model Sig_Model Sig_Spec Sig_Proofs1 Sig_Proofs2 Sig_Proofs3.
Import ListNotations.
Local Open Scope res_scope.
Local Open Scope nat_scope.

Lemma some_inv : forall c n r, some c n = Ok r -> r = repeat c (Z.to_nat (Z.min 49 n)) /\ (0 <= n)%Z.
Proof. intros c n r H. unfold some in H. destruct (Z.ltb_spec n 0); [discriminate H|]. split; [apply ok_inj in H; congruence|assumption]. Qed.
Lemma some_ok : forall c n, (0 <= n)%Z -> some c n = Ok (repeat c (Z.to_nat (Z.min 49 n))).
Proof. intros c n H. unfold some. destruct (Z.ltb_spec n 0); [lia|reflexivity]. Qed.
Lemma pair_verdict_better : forall w a b, In w [-1; 0; 1]%Z -> pair_verdict w a b = better w a b.
Proof. intros w a b H. cbn in H. destruct H as [<-|[<-|[<-|[]]]]; reflexivity. Qed.
Lemma pair_cell_ok : forall m off name r, pair_cell (3 + m) off name = Ok r ->
  box name r /\ ((0 <= m + 2 <= 49)%Z -> Z.of_nat (length r) = (m + 3)%Z).
Proof.
  intros m off name r H. unfold pair_cell in H. cbv zeta in H. set (t := if off then 0%Z else ((3 + m - 1 - slen name) / 2)%Z) in *.
  next H. next H. apply ok_inj in H. destruct (some_inv _ _ _ E) as [-> T0]. destruct (some_inv _ _ _ E0) as [-> T1]. split.
  - eexists. eexists. rewrite <- H. unfold blanks. reflexivity.
  - intros M. rewrite <- H. unfold slen in *. rewrite !app_length, !repeat_length. cbn [length]. lia.
Qed.
Lemma pair_cell_prints : forall m off name, (slen name <= m + 2)%Z -> exists r, pair_cell (3 + m) off name = Ok r.
Proof.
  intros m off name H. unfold pair_cell. cbv zeta.
  assert (T : (0 <= (if off then 0 else (3 + m - 1 - slen name) / 2) <= 3 + m - 1 - slen name)%Z).
  { destruct off; [lia|]. pose proof (Z.div_mod (3 + m - 1 - slen name) 2 ltac:(lia)). pose proof (Z.mod_pos_bound (3 + m - 1 - slen name) 2 ltac:(lia)). lia. }
  rewrite some_ok by lia. cbn [rbind]. rewrite some_ok by lia. cbn [rbind]. eexists. reflexivity.
Qed.
Lemma pad_line : forall l, one_line (pad_for l).
Proof. intros. apply one_line_blanks. Qed.

Lemma pair_rows : forall (names : list str) w m spacer ind rows n ms, n = length names -> ms = map (fun t => (t, nth t names [])) (seq 0 n) -> (forall s t, In (w s t) [-1; 0; 1]%Z) ->
  Forall2 (fun me p => (let '(i, a) := me in
      let* cs := each (fun o : nat * str => if Nat.leb (fst o) i then pair_cell (3 + m) true []
                                else pair_cell (3 + m) false (pair_verdict (w i (fst o)) a (snd o))) (numbered names) in
      Ok [spacer; ind ++ [124%N] ++ boxed m a ++ concat cs]) = Ok p) ms rows ->
  Forall2 (fun s p => s < n /\ exists cs, p = [spacer; ind ++ [124%N] ++ boxed m (nth s names []) ++ concat cs]
     /\ Forall2 (fun t c => t < n /\ box (entry names w s t) c /\ ((0 <= m + 2 <= 49)%Z -> Z.of_nat (length c) = (m + 3)%Z)) (seq 0 n) cs) (seq 0 n) rows.
Proof.
  intros names w m spacer ind rows n ms Hn N1 WV. subst ms. assert (SS : forall t, In t (seq 0 n) -> t < n) by (intros t Ht; apply in_seq in Ht; lia).
  assert (CS : forall s cs, each (fun o : nat * str => if Nat.leb (fst o) s then pair_cell (3 + m) true []
                                else pair_cell (3 + m) false (pair_verdict (w s (fst o)) (nth s names []) (snd o))) (numbered names) = Ok cs ->
     Forall2 (fun t c => t < n /\ box (entry names w s t) c /\ ((0 <= m + 2 <= 49)%Z -> Z.of_nat (length c) = (m + 3)%Z)) (seq 0 n) cs).
  { intros s cs H. apply each_inv in H. rewrite numbered_map, <- Hn in H. revert cs H SS. induction (seq 0 n) as [|t ts IH]; intros cs H SS; cbn [map] in H; inversion H as [|? c ? cs' Hc Hcs]; subst; constructor.
    - split; [apply SS; left; reflexivity|]. cbn [fst snd] in Hc. unfold entry. destruct (Nat.leb_spec t s); [exact (pair_cell_ok _ _ _ _ Hc)|].
      rewrite pair_verdict_better in Hc by apply WV. unfold against. rewrite Nat.min_l, Nat.max_r by lia. exact (pair_cell_ok _ _ _ _ Hc).
    - apply IH; [exact Hcs|intros u Hu; apply SS; right; exact Hu]. }
  intros H.
  revert H SS. generalize (seq 0 n) at 1 2 4 as l. intros l H SL. revert rows H SL. induction l as [|s l IH]; intros rows H SL; cbn [map] in H; inversion H as [|? p ? ps Hp Hps]; subst; constructor.
  - split; [apply SL; left; reflexivity|]. next Hp. apply ok_inj in Hp. exists a. split; [symmetry; exact Hp|]. apply CS. exact E.
  - apply IH; [exact Hps|intros u Hu; apply SL; right; exact Hu].
Qed.

Lemma pair_ok : forall mn vd tn good names w ls, Forall word names -> one_line mn -> one_line vd -> one_line tn -> one_line good ->
  (forall s t, In (w s t) [-1; 0; 1]%Z) -> pair_matrix mn vd tn good names w = Ok ls ->
  let g := grid (length names) (text ls) in
  boxes (nth 1 g []) = [] :: names
  /\ map boxes (seconds (skipn 2 g)) = map (matrix_row names w) (seq 0 (length names))
  /\ ((longest 0 names <= 46)%Z -> exists k, Forall (fun l => length l = k) g).
Proof.
  intros mn vd tn good names w ls W T1 T2 T3 T4 WV H g. unfold pair_matrix in H. cbv zeta in H. next H. next H. next H. next H. apply ok_inj in H.
  destruct (some_inv _ _ _ E) as [-> S1]. destruct (some_inv _ _ _ E0) as [-> S2]. destruct (some_inv _ _ _ E1) as [-> S3]. clear E E0 E1. rename a2 into rows.
  set (m := longest 0 names) in *. set (n := length names) in *. change (pad_for ((Z.of_nat n + 1) * (3 + m))) with (blanks (Z.to_nat (Z.min ((80 - (Z.of_nat n + 1) * (3 + m)) / 2) 131 - 1))) in *.
  set (k := Z.to_nat (Z.min ((80 - (Z.of_nat n + 1) * (3 + m)) / 2) 131 - 1)) in *.
  set (h1 := repeat 45%N (Z.to_nat (Z.min 49 (3 + m - 1)))) in *. set (h := repeat 45%N (Z.to_nat (Z.min 49 (3 + m)))) in *. set (s1 := repeat 32%N (Z.to_nat (Z.min 49 (3 + m - 1)))) in *.
  set (line := blanks k ++ [124%N] ++ h1 ++ concat (map (fun _ : str => h) names) ++ [124%N]) in *.
  set (spacer := blanks k ++ [124%N] ++ h1 ++ concat (map (fun _ : str => 43%N :: h1) names) ++ [124%N]) in *.
  set (head := blanks k ++ [124%N] ++ s1 ++ [124%N] ++ flat_map (boxed m) names) in *.
  assert (IN : forall s, s < n -> In (nth s names []) names) by (intros s Hs; apply nth_In, Hs).
  assert (WN : forall s, s < n -> word (nth s names [])) by (intros s Hs; rewrite Forall_forall in W; apply W, IN, Hs).
  assert (ML : forall x, In x names -> (slen x <= m)%Z) by (intros x Hx; apply (proj2 (longest_fold names 0)), Hx).
  apply each_inv in E2.
  assert (R : Forall2 (fun s p => s < n /\ exists cs, p = [spacer; blanks k ++ [124%N] ++ boxed m (nth s names []) ++ concat cs]
     /\ Forall2 (fun t c => t < n /\ box (entry names w s t) c /\ ((0 <= m + 2 <= 49)%Z -> Z.of_nat (length c) = (m + 3)%Z)) (seq 0 n) cs) (seq 0 n) rows).
  { apply (pair_rows _ _ _ _ _ _ _ (numbered names)); [reflexivity|apply numbered_map|exact WV|exact E2]. }
  clear E2.
  assert (P2 : Forall (fun p : list str => length p = 2) rows) by (apply (F2_Forall _ _ _ _ R); intros s p _ (_ & cs & -> & _); reflexivity).
  assert (Hls : exists pre, ls = pre ++ line :: head :: concat rows ++ [line] /\ Forall one_line pre).
  { exists ([[]; []; []; pad_for (slen mn) ++ mn] ++ match vd with [] => [] | _ => [pad_for (slen vd) ++ vd] end ++ match tn with [] => [] | _ => [pad_for (slen tn) ++ tn] end
      ++ [pad_for (slen (bytes "Minimum Number of Correct Boundary words") + 2) ++ bytes "Minimum Number of Correct Boundary words " ++ good; []; []]). split.
    - rewrite <- H. cbn [app]. rewrite <- !app_assoc. cbn [app]. reflexivity.
    - assert (TI : forall s, one_line s -> Forall one_line match s with [] => [] | _ => [pad_for (slen s) ++ s] end).
      { intros [|c s] Hs; [constructor|]. constructor; [|constructor]. apply one_line_app; [apply pad_line|exact Hs]. }
      repeat (apply Forall_app; split); [|apply TI, T2|apply TI, T3|].
      + do 3 (apply Forall_cons; [apply one_line_nil|]). apply Forall_cons; [|constructor]. apply one_line_app; [apply pad_line|exact T1].
      + apply Forall_cons; [|do 2 (apply Forall_cons; [apply one_line_nil|]); constructor]. apply one_line_app; [apply pad_line|]. apply one_line_app; [apply bytes_line; reflexivity|exact T4]. }
  destruct Hls as (pre & Hls & PRE). clear H.
  assert (NB : forall c j, c <> 10%N -> one_line (repeat c j)) by (intros; apply one_line_repeat; assumption).
  assert (BAR : one_line [124%N]) by (apply one_line_cons; [discriminate|apply one_line_nil]).
  assert (L : one_line line).
  { unfold line, h1, h. repeat apply one_line_app; auto using one_line_blanks; try (apply NB; discriminate). apply one_line_concat, Forall_forall. intros x Hx. apply in_map_iff in Hx. destruct Hx as (y & <- & _). apply NB. discriminate. }
  assert (ONE : Forall one_line (line :: head :: concat rows ++ [line])).
  { constructor; [exact L|]. constructor.
    - unfold head, s1. repeat apply one_line_app; auto using one_line_blanks; try (apply NB; discriminate). rewrite flat_map_concat_map. apply one_line_concat, Forall_forall. intros x Hx. apply in_map_iff in Hx. destruct Hx as (y & <- & Hy).
      apply boxed_line, word_line. rewrite Forall_forall in W. apply W, Hy.
    - apply Forall_app. split; [|constructor; [exact L|constructor]]. apply Forall_concat. apply (F2_Forall _ _ _ _ R). intros s p _ (Hs & cs & -> & Hcs).
      constructor; [|constructor; [|constructor]].
      + unfold spacer, h1. repeat apply one_line_app; auto using one_line_blanks; try (apply NB; discriminate). apply one_line_concat, Forall_forall. intros x Hx. apply in_map_iff in Hx. destruct Hx as (y & <- & _). apply one_line_cons; [discriminate|]. apply NB. discriminate.
      + apply one_line_app; [apply one_line_blanks|]. apply one_line_app; [exact BAR|]. apply one_line_app; [apply boxed_line, word_line, WN, Hs|]. apply one_line_concat. apply (F2_Forall _ _ _ _ Hcs). intros t c _ (Ht & (f & b & ->) & _).
        apply one_line_app; [apply one_line_blanks|]. apply one_line_app; [apply entry_line; assumption|]. apply one_line_app; [apply one_line_blanks|exact BAR]. }
  assert (G : g = line :: head :: concat rows ++ [line]).
  { unfold g. rewrite Hls. apply grid_text; [exact PRE|exact ONE|]. cbn [length]. rewrite app_length. pose proof (pairs_length rows P2) as PL. pose proof (eq_trans (eq_sym (F2_len _ _ _ R)) (seq_length n 0)) as RL. unfold str in *. cbn [length]. lia. }
  rewrite G. split; [|split].
  - cbn [nth]. unfold head. rewrite flat_map_concat_map.
    transitivity (boxes (blanks k ++ [124%N] ++ concat ((s1 ++ [124%N]) :: map (boxed m) names))); [cbn [concat]; rewrite <- (app_assoc s1); reflexivity|].
    apply boxes_ok. constructor; [split; [right; reflexivity|]|].
    + exists (Z.to_nat (Z.min 49 (3 + m - 1))), 0. reflexivity.
    + apply boxeds. apply Forall_forall. intros x Hx. left. rewrite Forall_forall in W. apply W, Hx.
  - cbn [skipn]. rewrite seconds_pairs by exact P2. rewrite map_map. apply (F2_map _ _ _ _ _ R). intros s p _ (Hs & cs & -> & Hcs). cbn [nth].
    change (boxed m (nth s names []) ++ concat cs) with (concat (boxed m (nth s names []) :: cs)). apply boxes_ok. constructor; [split; [left; apply WN, Hs|apply box_boxed]|].
    unfold n in *. change (map (fun t => if t <=? s then [] else against names w s t) (seq 0 (length names))) with (map (entry names w s) (seq 0 (length names))).
    clear - Hcs W Hs. induction Hcs as [|t c ts cs (Ht & Hb & _) _ IH]; cbn [map]; constructor; [split; [apply entry_ok; assumption|exact Hb]|exact IH].
  - intros M. assert (M0 : (0 <= m)%Z) by (apply (proj1 (longest_fold names 0))). exists (k + Z.to_nat ((m + 3) * (Z.of_nat n + 1) + 1)).
    assert (LEN : forall a : str, Z.of_nat (length a) = ((m + 3) * (Z.of_nat n + 1))%Z -> length (blanks k ++ [124%N] ++ a) = k + Z.to_nat ((m + 3) * (Z.of_nat n + 1) + 1)).
    { intros a Ha. rewrite !app_length, blanks_length. cbn [length]. lia. }
    assert (LL : length line = k + Z.to_nat ((m + 3) * (Z.of_nat n + 1) + 1)).
    { apply LEN. rewrite !app_length, !Nat2Z.inj_add, (concat_lengths (m + 3)).
      - unfold h1. rewrite map_length, repeat_length. cbn [length]. fold n. lia.
      - apply Forall_forall. intros x Hx. apply in_map_iff in Hx. destruct Hx as (y & <- & _). unfold h. rewrite repeat_length. lia. }
    constructor; [exact LL|]. constructor.
    + apply LEN. rewrite !app_length, !Nat2Z.inj_add, flat_map_concat_map, (concat_lengths (m + 3)).
      * unfold s1. rewrite map_length, repeat_length. cbn [length]. fold n. lia.
      * apply Forall_forall. intros x Hx. apply in_map_iff in Hx. destruct Hx as (y & <- & Hy). apply boxed_length, ML, Hy.
    + apply Forall_app. split; [|constructor; [exact LL|constructor]]. apply Forall_concat. apply (F2_Forall _ _ _ _ R). intros s p _ (Hs & cs & -> & Hcs).
      constructor; [|constructor; [|constructor]].
      * apply LEN. rewrite !app_length, !Nat2Z.inj_add, (concat_lengths (m + 3)).
        -- unfold h1. rewrite map_length, repeat_length. cbn [length]. fold n. lia.
        -- apply Forall_forall. intros x Hx. apply in_map_iff in Hx. destruct Hx as (y & <- & _). unfold h1. cbn [length]. rewrite repeat_length. lia.
      * apply LEN. rewrite app_length, Nat2Z.inj_add, boxed_length by (apply ML, IN, Hs). rewrite (concat_lengths (m + 3)).
        -- rewrite <- (F2_len _ _ _ Hcs), seq_length. lia.
        -- apply (F2_Forall _ _ _ _ Hcs). intros t c _ (_ & _ & B). apply B. lia.
Qed.
