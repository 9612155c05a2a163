(** Lemmas for the pieces and the conversations. *)
From Coq Require Import String List NArith ZArith Arith Bool Lia Sorted.
From Verif Require Import Base Chan_Model Chan_Proofs Chop_Model Chop_Spec Chop_Proofs1.
From Verif Require Sil_Model Sgml_Model Sgml_Proofs1 AsStm_Proofs2.
Import ListNotations.
Local Open Scope res_scope.
Local Open Scope Z_scope.

Lemma skipn_skipn {A} : forall x y (l : list A), skipn x (skipn y l) = skipn (x + y) l.
Proof. intros x y. induction y as [|y IH]; intros l; [rewrite Nat.add_0_r; reflexivity|]. rewrite Nat.add_succ_r. destruct l; [destruct x; reflexivity|]. cbn [skipn]. apply IH. Qed.
(** ** Names *)
Lemma four_ok k : number4 k (four k).
Proof.
  unfold four. set (n := N.of_nat k). set (x := Sgml_Model.nat_text n). destruct (Sgml_Proofs1.nat_text_ok n) as (V & F & NE). fold x in V, F, NE. split; [|split; [|split]].
  - apply Forall_app. split; [apply Forall_forall; intros c H; apply repeat_spec in H; subst; lia|exact F].
  - rewrite fold_left_app. replace (fold_left (fun a c : N => (a * 10 + (c - 48))%N) (repeat 48%N (4 - length x)) 0%N) with 0%N; [exact V|].
    generalize (4 - length x)%nat. intros j. induction j as [|j IH]; [reflexivity|exact IH].
  - rewrite app_length, repeat_length. lia.
  - rewrite app_length, repeat_length. intros L. replace (4 - length x)%nat with 0%nat by lia. cbn [repeat app].
    assert (P : (0 < n)%N). { destruct (N.eq_dec n 0) as [Z|]; [|lia]. exfalso. subst x. rewrite Z in L. vm_compute in L. lia. }
    apply AsStm_Proofs2.digits_head; [apply Sgml_Proofs1.size_bound|exact P].
Qed.
Lemma number4_short k d : number4 k d -> (k < 1000)%nat -> length d = 4%nat.
Proof.
  intros (F & V & L & Z) K. destruct (Nat.eq_dec (length d) 4) as [E|E]; [exact E|exfalso]. specialize (Z ltac:(lia)). destruct d as [|c d]; [cbn in L; lia|].
  cbn [hd] in Z. cbn [fold_left] in V.
  assert (G : forall s a, (a * 10 ^ N.of_nat (length s) <= fold_left (fun a c : N => (a * 10 + (c - 48))%N) s a)%N).
  { clear. induction s as [|x s IH]; intros a; [cbn; lia|]. cbn [fold_left length]. rewrite Nat2N.inj_succ, N.pow_succ_r'. etransitivity; [|apply IH]. set (p := (10 ^ N.of_nat (length s))%N). clearbody p. nia. }
  specialize (G d (0 * 10 + (c - 48))%N). apply Forall_inv in F. cbn [length] in L, E.
  assert (P : (10 ^ 3 <= 10 ^ N.of_nat (length d))%N) by (apply N.pow_le_mono_r; lia). change (10 ^ 3)%N with 1000%N in P. set (p := (10 ^ N.of_nat (length d))%N) in *. clearbody p.
  rewrite V in G. nia.
Qed.
Lemma utt_id_ok c t k : exists d, number4 k d /\ utt_id c t k = [40%N] ++ c ++ [45%N] ++ t ++ [45%N] ++ d ++ [41%N].
Proof. exists (four k). split; [apply four_ok|reflexivity]. Qed.
(** ** Words by their numbers *)
Lemma wd_nth {A} (l : list A) i w : wd l i = Ok w <-> 1 <= i /\ nth_error l (Z.to_nat (i - 1)) = Some w.
Proof.
  unfold wd. destruct (Z.ltb_spec i 1); [split; [discriminate|lia]|]. destruct (nth_error _ _) eqn:E; split; intros H1; try discriminate.
  - injection H1 as <-. auto.
  - destruct H1 as (_ & H1). injection H1 as <-. reflexivity.
  - destruct H1. discriminate.
Qed.
Lemma words_split {A} (l : list A) a m b : 1 <= a -> a - 1 <= m <= b -> words_of l a b = words_of l a m ++ words_of l (m + 1) b.
Proof.
  intros B1 B2. unfold words_of. replace (Z.to_nat (b + 1 - a)) with (Z.to_nat (m + 1 - a) + Z.to_nat (b + 1 - (m + 1)))%nat by lia.
  set (x := Z.to_nat (m + 1 - a)). set (y := Z.to_nat (b + 1 - (m + 1))). replace (Z.to_nat (m + 1 - 1)) with (x + Z.to_nat (a - 1))%nat by lia.
  rewrite <- (firstn_skipn x (skipn (Z.to_nat (a - 1)) l)) at 1. rewrite skipn_skipn.
  rewrite firstn_app. f_equal; [rewrite firstn_firstn; f_equal; lia|].
  rewrite firstn_length, skipn_length. destruct (Nat.le_gt_cases x (length l - Z.to_nat (a - 1))).
  - f_equal. lia.
  - rewrite (skipn_all2 l) by lia. rewrite !firstn_nil. reflexivity.
Qed.
Lemma words_length {A} (l : list A) a b : 1 <= a -> b <= Z.of_nat (length l) -> a <= b + 1 -> length (words_of l a b) = Z.to_nat (b + 1 - a).
Proof. intros. unfold words_of. rewrite firstn_length, skipn_length. lia. Qed.
Lemma words_none {A} (l : list A) a b : b < a -> words_of l a b = [].
Proof. intros. unfold words_of. replace (Z.to_nat (b + 1 - a)) with 0%nat by lia. reflexivity. Qed.
Lemma words_one {A} (l : list A) i w : wd l i = Ok w -> words_of l i i = [w].
Proof.
  intros H. apply wd_nth in H. destruct H as (B & H). unfold words_of. replace (Z.to_nat (i + 1 - i)) with 1%nat by lia.
  apply nth_error_split in H. destruct H as (p & q & -> & L). rewrite skipn_app, <- L, skipn_all, Nat.sub_diag. reflexivity.
Qed.
Lemma words_last {A} (l : list A) a b w : 1 <= a <= b -> wd l b = Ok w -> words_of l a b = words_of l a (b - 1) ++ [w].
Proof. intros B H. rewrite (words_split l a (b - 1) b) by lia. replace (b - 1 + 1) with b by lia. rewrite (words_one _ _ _ H). reflexivity. Qed.
Lemma words_first {A} (l : list A) a b w : 1 <= a <= b -> wd l a = Ok w -> words_of l a b = w :: words_of l (a + 1) b.
Proof. intros B H. rewrite (words_split l a a b) by lia. rewrite (words_one _ _ _ H). reflexivity. Qed.
Lemma words_empty {A} (l : list A) a b : 1 <= a -> b <= Z.of_nat (length l) -> a <= b + 1 -> words_of l a b = [] -> b < a.
Proof. intros B1 B2 B3 H. pose proof (words_length l a b B1 B2 B3) as L. rewrite H in L. cbn in L. lia. Qed.

(** ** A channel *)
Lemma overlap_time r1 r2 h1 h2 : 0 <= Sil_Model.overlap r1 r2 h1 h2 -> r1 <= r2 -> h1 <= h2 -> exists t, r1 <= t <= r2 /\ h1 <= t <= h2.
Proof.
  intros H A B. exists (Z.max r1 h1). unfold Sil_Model.overlap in H. destruct (Z.ltb_spec r1 h1), (Z.ltb_spec r2 h2); lia.
Qed.
Lemma gap_pause (l : list mword) s e c a b : 1 <= s <= e -> e <= c -> gap l e c = Ok (a, b) -> pause_begin (words_of l s e) a /\ pause_end (words_of l (e + 1) c) b.
Proof.
  intros B C H. unfold gap in H. ib H. ib H. injection H as <- <-. split.
  - exists (words_of l s (e - 1)), m. split; [apply words_last; [lia|exact E]|reflexivity].
  - destruct (Z.eqb_spec e c).
    + injection E0 as <-. rewrite words_none by lia. reflexivity.
    + ib E0. injection E0 as <-. rewrite (words_first l (e + 1) c m1) by (try exact E1; lia). reflexivity.
Qed.
Lemma cut_good ref hyp rs hs rc hc rx hx : 1 <= rs -> 1 <= hs -> rc <= Z.of_nat (length ref) -> hc <= Z.of_nat (length hyp) -> cut_ok ref hyp rs hs rc hc rx hx ->
  good_cut (words_of ref rs rx) (words_of ref (rx + 1) rc) (words_of hyp hs hx) (words_of hyp (hx + 1) hc).
Proof.
  intros R1 H1 LR LH (BR & BH & PR & C) NE. destruct C as [(-> & ->)|(NA & C)].
  { exfalso. apply NE. rewrite !words_none by lia. reflexivity. }
  split.
  - intros p w E. destruct NA as [NA|(v & W & NA)]; [rewrite words_none in E by lia; destruct p; discriminate|].
    destruct (Z_lt_ge_dec rx rs); [rewrite words_none in E by lia; destruct p; discriminate|].
    rewrite (words_last ref rs rx v ltac:(lia) W) in E. apply app_inj_tail in E. destruct E as (_ & <-). exact NA.
  - rewrite !words_length by lia. destruct C as [C|[C|(a & b & c & d & G1 & G2 & O)]]; [left; lia|right; left; lia|].
    destruct (Z_lt_ge_dec rx rs); [left; lia|]. destruct (Z_lt_ge_dec hx hs); [right; left; lia|].
    right; right. destruct (gap_pause ref rs rx rc a b ltac:(lia) ltac:(lia) G1) as (P1 & P2). destruct (gap_pause hyp hs hx hc c d ltac:(lia) ltac:(lia) G2) as (P3 & P4).
    exists a, b, c, d. repeat (split; [assumption|]). apply overlap_time, O.
Qed.
Lemma pieces_chunked ref hyp c t : forall f rb hb re he k ps, pieces ref hyp f rb hb re he k = Ok ps -> 1 <= rb <= re + 1 -> 1 <= hb <= he + 1 ->
  re <= Z.of_nat (length ref) -> he <= Z.of_nat (length hyp) -> (forall i w, rb <= i <= re -> wd ref i = Ok w -> conv w = c /\ turn w = t) ->
  chunked c t (words_of ref rb re) (words_of hyp hb he) k ps.
Proof.
  induction f as [|f IH]; intros rb hb re he k ps H BR BH LR LH N1; [discriminate|]. cbn [pieces] in H.
  destruct ((rb <=? re) || (hb <=? he)) eqn:EL.
  - ip H rx hx. apply cut_some in E; [|lia..]. ib H. destruct (_ <? 100)%nat; [|discriminate]. ib H. injection H as <-.
    pose proof (cut_good ref hyp rb hb re he rx hx ltac:(lia) ltac:(lia) LR LH E) as G. destruct E as (B1 & B2 & PR & _).
    rewrite (words_split ref rb rx re), (words_split hyp hb hx he) by lia.
    match goal with |- chunked _ _ _ _ _ (?p :: _) => change (words_of ref rb rx) with (p_ref p); change (words_of hyp hb hx) with (p_hyp p) end.
    constructor; cbn [p_ref p_hyp].
    + intros K. apply app_eq_nil in K. destruct K as (K1 & K2). apply words_empty in K1; [|lia..]. apply words_empty in K2; lia.
    + intros K. rewrite <- words_split in K by lia. assert (rb <= re). { destruct (Z_lt_ge_dec re rb); [rewrite words_none in K by lia; congruence|lia]. }
      destruct (N1 rb m ltac:(lia) E0) as (<- & <-). repeat split. apply utt_id_ok.
    + exact G.
    + apply IH; try lia; [exact E1|]. intros i w B. apply N1. lia.
  - injection H as <-. apply orb_false_elim in EL. destruct EL as (L1 & L2). apply Z.leb_gt in L1, L2. rewrite !words_none by lia. constructor.
Qed.
Lemma pieces_ends ref hyp : (forall w, wd ref 1 = Ok w -> alternate w = false) ->
  forall f rb hb re he k, 1 <= rb <= re + 1 -> 1 <= hb <= he + 1 -> 1 <= re <= Z.of_nat (length ref) -> 1 <= he <= Z.of_nat (length hyp) ->
  (re - rb + 1 + (he - hb + 1) < Z.of_nat f) ->
  (forall i j w, wd ref i = Ok w -> (j <= length ref + length hyp)%nat -> (length (utt_id (conv w) (turn w) j) < 100)%nat) ->
  Z.of_nat k + (re - rb + 1 + (he - hb + 1)) <= Z.of_nat (length ref + length hyp) ->
  (re < Z.of_nat (length ref) \/ (re - rb < 50 /\ he - hb < 50 /\ rb <= re)) ->
  exists ps, pieces ref hyp f rb hb re he k = Ok ps.
Proof.
  intros FA. induction f as [|f IH]; intros rb hb re he k BR BH LR LH F ID K0 W; [lia|]. cbn [pieces].
  destruct ((rb <=? re) || (hb <=? he)) eqn:EL; [|eauto]. apply orb_prop in EL. rewrite !Z.leb_le in EL.
  pose proof (rounds_big rb re). pose proof (rounds_big hb he).
  destruct (cut_ends ref hyp FA (rounds rb re + rounds hb he) rb hb re he 50) as (rx & hx & E); [lia..|]. rewrite E. cbn [rbind].
  assert (WR : exists w, wd ref rb = Ok w) by (apply wd_some; lia). destruct WR as (w & WR). rewrite WR. cbn [rbind].
  pose proof (ID rb k w WR ltac:(lia)) as L. apply Nat.ltb_lt in L. rewrite L.
  assert (G : exists ps, pieces ref hyp f (rx + 1) (hx + 1) re he (S k) = Ok ps).
  { destruct W as [W|(W1 & W2 & W3)].
    - apply cut_some in E; [|lia..]. destruct E as (B1 & B2 & PR & _). apply IH; auto; lia.
    - assert (rx = re /\ hx = he) as (-> & ->).
      { destruct (rounds rb re + rounds hb he)%nat as [|g] eqn:EG; [unfold rounds in EG; lia|]. cbn [cut] in E. unfold chop in E.
        destruct (Z.ltb_spec re rb); [lia|]. cbn [andb] in E. destruct (Z.ltb_spec (re - rb) 50); [|lia]. destruct (Z.ltb_spec (he - hb) 50); [|lia]. cbn [andb rbind] in E. injection E as <- <-. auto. }
      destruct f as [|f]; [lia|]. cbn [pieces]. destruct (Z.leb_spec (re + 1) re); [lia|]. destruct (Z.leb_spec (he + 1) he); [lia|]. cbn [orb]. eauto. }
  destruct G as (ps & ->). cbn [rbind]. eauto.
Qed.

(** ** Boundaries *)
Lemma loop_at by_turn (x : mword) : forall (m p q : list mword) w n, (forall y : mword, In y m -> conv y = conv x /\ (by_turn = true -> turn y = turn x)) ->
  (match q with [] => True | y :: _ => conv y <> conv x \/ (by_turn = true /\ turn (the_word y) <> turn x) end) ->
  w = Z.of_nat (length p) + 1 -> n = (length m + length q)%nat ->
  boundary_loop n by_turn (p ++ m ++ q) x w = Ok (Z.of_nat (length p) + Z.of_nat (length m)).
Proof.
  induction m as [|y m IH]; intros p q w n A D -> ->; cbn [length plus].
  - cbn [app]. destruct q as [|y q]; cbn [length boundary_loop]; [rewrite app_length; cbn [length]; f_equal; lia|].
    rewrite wd_at by reflexivity. cbn [rbind].
    assert (E : str_eqb (conv x) (conv y) && (negb by_turn || str_eqb (turn x) (turn y)) = false).
    { apply andb_false_iff. destruct D as [D|(-> & D)].
      - left. destruct (str_eqb _ _) eqn:E; [|reflexivity]. apply str_eqb_iff in E. congruence.
      - right. cbn [negb orb]. destruct (str_eqb _ _) eqn:E; [|reflexivity]. apply str_eqb_iff in E. congruence. }
    rewrite E. f_equal. lia.
  - cbn [boundary_loop]. cbn [app]. rewrite wd_at by reflexivity. cbn [rbind]. destruct (A y (or_introl eq_refl)) as (A1 & A2).
    assert (E : str_eqb (conv x) (conv y) && (negb by_turn || str_eqb (turn x) (turn y)) = true).
    { apply andb_true_intro. split; [apply str_eqb_iff; congruence|]. destruct by_turn; [|reflexivity]. cbn [negb orb]. apply str_eqb_iff. rewrite A2; reflexivity. }
    rewrite E. replace (p ++ y :: m ++ q) with ((p ++ [y]) ++ m ++ q) by (rewrite <- app_assoc; reflexivity).
    rewrite (IH (p ++ [y]) q); [rewrite app_length; cbn [length]; f_equal; lia|intros z I; apply A; right; exact I|exact D|rewrite app_length; cbn [length]; lia|reflexivity].
Qed.
Lemma boundary_at by_turn (p : list mword) (x : mword) (m q : list mword) s : (forall y : mword, In y m -> conv y = conv x /\ (by_turn = true -> turn y = turn x)) ->
  (match q with [] => True | y :: _ => conv y <> conv x \/ (by_turn = true /\ turn (the_word y) <> turn x) end) ->
  s = Z.of_nat (length p) + 1 ->
  locate_boundary by_turn (p ++ (x :: m) ++ q) s = Ok (Z.of_nat (length p) + Z.of_nat (length (x :: m))).
Proof.
  intros A D ->. unfold locate_boundary. cbv zeta. rewrite !app_length. cbn [length].
  destruct (Z.eqb_spec (Z.of_nat (length p) + 1) (Z.of_nat (length p + (S (length m) + length q)))); [f_equal; lia|].
  destruct (Z.ltb_spec (Z.of_nat (length p + (S (length m) + length q))) (Z.of_nat (length p) + 1)); [lia|].
  cbn [app]. rewrite wd_at by reflexivity. cbn [rbind]. rewrite app_comm_cons.
  rewrite (loop_at by_turn x (x :: m) p q); [reflexivity| |exact D|reflexivity|cbn [length]; lia].
  intros y [<-|I]; [auto|apply A, I].
Qed.
