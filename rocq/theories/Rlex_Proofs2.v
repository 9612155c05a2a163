(** Proofs about the reading of RTTM files word by word: the tokens of the words. *)
From Coq Require Import String List NArith ZArith Arith Bool Ascii Lia Sorted.
From Verif Require Import Base Store_Model Store_Proofs Segm_Model Graph_Model Links_Model Links_Spec Links_Proofs Token_Model Alt_Model Alt_Spec Alt_Proofs Alt_Proofs2 AsTrn_Model AsTrn_Spec AsTrn_Proofs AsStm_Model AsStm_Spec AsStm_Proofs1 AsStm_Proofs2 Rttm_Model Rttm_Spec Rttm_Proofs1 Rttm_Proofs2 Rttm_Proofs3 Rttm_Proofs4 Rttm_Proofs5 Rttm_Proofs6 Rlex_Spec Rlex_Proofs.
Import ListNotations.
Local Open Scope res_scope.
Local Notation length := List.length.

(** A word, its segment, and the range of its tokens *)
Record blk := { k_g : lexeme; k_x : rseg; k_lo : nat; k_hi : nat }.
Definition k_first (b : blk) : list nat := sg_first (r_seg (k_x b)).
Definition k_last (b : blk) : list nat := sg_last (r_seg (k_x b)).
Definition inb (b : blk) (x : nat) : Prop := k_lo b <= x < k_hi b.
Definition owners (bs : list blk) : list str := map (fun b => g_spkr (k_g b)) bs.
Definition joined (bs : list blk) (x y : nat) : Prop :=
  exists s i j b b', consec (pos s (owners bs)) i j /\ nth_error bs i = Some b /\ nth_error bs j = Some b' /\ In x (k_last b) /\ In y (k_first b').
Record blocks (st : pstate) (bs : list blk) : Prop := {
  b_in : forall i b, nth_error bs i = Some b -> k_lo b <= k_hi b <= length (ps_toks st) /\ (forall x, In x (k_first b) -> inb b x) /\ (forall x, In x (k_last b) -> inb b x);
  b_order : forall i j b b', i < j -> nth_error bs i = Some b -> nth_error bs j = Some b' -> k_hi b <= k_lo b';
  b_edges : forall x y, edge (ps_links st) x y -> (exists i b, nth_error bs i = Some b /\ inb b x /\ inb b y) \/ joined bs x y;
  b_joined : forall x y, joined bs x y -> edge (ps_links st) x y }.
Definition srct (st : pstate) (i : nat) : string := string_of_list_ascii (source (nth i (ps_toks st) no_tok)).
(** Readings inside the tokens of a word *)
Definition inner (st : pstate) (b : blk) (w : list string) : Prop :=
  exists a l, In a (k_first b) /\ walk (ps_links st) a l /\ Forall (inb b) (a :: l) /\ In (last l a) (k_last b) /\ map (srct st) (a :: l) = w.

Lemma walk_app h l1 y l2 : forall a, walk h a (l1 ++ y :: l2) <-> walk h a l1 /\ edge h (last l1 a) y /\ walk h y l2.
Proof.
  induction l1 as [|c l1 IH]; intros a; [cbn [app walk last]; tauto|]. cbn [app walk]. rewrite IH, last_cons. tauto.
Qed.

Section Walks.
Variables (st : pstate) (bs : list blk).
Hypothesis BL : blocks st bs.
Lemma same_block i j b b' x : nth_error bs i = Some b -> nth_error bs j = Some b' -> inb b x -> inb b' x -> i = j.
Proof.
  intros E E' I1 I2. unfold inb in *. destruct (Nat.lt_trichotomy i j) as [L|[L|L]]; [pose proof (b_order _ _ BL i j b b' L E E'); lia|exact L|pose proof (b_order _ _ BL j i b' b L E' E); lia].
Qed.
Lemma joined_parts x y : joined bs x y -> exists s i j b b', consec (pos s (owners bs)) i j /\ i < j /\ nth_error bs i = Some b /\ nth_error bs j = Some b' /\ In x (k_last b) /\ In y (k_first b') /\ inb b x /\ inb b' y.
Proof.
  intros (s & i & j & b & b' & C & E & E' & IX & IY). exists s, i, j, b, b'. split; [exact C|]. split; [exact (consec_lt _ _ _ (pos_sorted s _) C)|]. repeat (split; [assumption|]).
  split; [exact (proj2 (proj2 (b_in _ _ BL i b E)) x IX)|exact (proj1 (proj2 (b_in _ _ BL j b' E')) y IY)].
Qed.
Lemma up_edge i b x y : nth_error bs i = Some b -> k_hi b <= x -> edge (ps_links st) x y -> k_hi b <= y.
Proof.
  intros E L ED.
  assert (UP : forall m bm, nth_error bs m = Some bm -> inb bm x -> i < m).
  { intros m bm EM IM. unfold inb in IM. destruct (Nat.lt_trichotomy i m) as [K|[K|K]]; [exact K|subst m; rewrite E in EM; injection EM as <-; lia|]. pose proof (b_order _ _ BL m i bm b K EM E). destruct (b_in _ _ BL i b E) as (K2 & _). lia. }
  destruct (b_edges _ _ BL x y ED) as [(m & bm & EM & IX & IY)|J].
  - pose proof (b_order _ _ BL i m b bm (UP m bm EM IX) E EM). unfold inb in IY. lia.
  - destruct (joined_parts x y J) as (s & m & j & bm & bj & _ & L2 & EM & EJ & _ & _ & IX & IY). pose proof (UP m bm EM IX) as L3. pose proof (b_order _ _ BL i j b bj ltac:(lia) E EJ). unfold inb in IY. lia.
Qed.
Lemma up_walk i b : nth_error bs i = Some b -> forall l x, k_hi b <= x -> walk (ps_links st) x l -> k_hi b <= last l x.
Proof.
  intros E. induction l as [|y l IH]; intros x L W; [exact L|]. rewrite last_cons. destruct W as (ED & W). apply IH; [exact (up_edge i b x y E L ED)|exact W].
Qed.
(** An edge out of a block goes to the next word of the speaker. *)
Lemma out_edge i b x y : nth_error bs i = Some b -> inb b x -> edge (ps_links st) x y ->
  inb b y \/ exists s j b', consec (pos s (owners bs)) i j /\ nth_error bs j = Some b' /\ In x (k_last b) /\ In y (k_first b') /\ k_hi b <= y.
Proof.
  intros E IX ED. destruct (b_edges _ _ BL x y ED) as [(m & bm & EM & IX' & IY)|J].
  - left. pose proof (same_block i m b bm x E EM IX IX'). subst m. rewrite E in EM. injection EM as <-. exact IY.
  - right. destruct (joined_parts x y J) as (s & m & j & bm & bj & C & L2 & EM & EJ & LX & FY & IX' & IY). pose proof (same_block i m b bm x E EM IX IX'). subst m. rewrite E in EM. injection EM as <-.
    exists s, j, bj. repeat (split; [assumption|]). pose proof (b_order _ _ BL i j b bj L2 E EJ). unfold inb in IY. lia.
Qed.
Lemma stay i b : nth_error bs i = Some b -> forall l a, inb b a -> walk (ps_links st) a l -> inb b (last l a) -> Forall (inb b) (a :: l).
Proof.
  intros E. induction l as [|y l IH]; intros a IA W IL; [constructor; [exact IA|constructor]|]. rewrite last_cons in IL. destruct W as (ED & W). constructor; [exact IA|].
  destruct (out_edge i b a y E IA ED) as [IY|(s & j & b' & _ & _ & _ & _ & L)]; [exact (IH y IY W IL)|]. pose proof (up_walk i b E l y L W). unfold inb in IL. lia.
Qed.
Lemma leave i b : nth_error bs i = Some b -> forall l a, inb b a -> walk (ps_links st) a l -> ~ inb b (last l a) ->
  exists l1 y l2 s j b', l = l1 ++ y :: l2 /\ walk (ps_links st) a l1 /\ Forall (inb b) (a :: l1) /\ In (last l1 a) (k_last b) /\ consec (pos s (owners bs)) i j /\ nth_error bs j = Some b' /\ In y (k_first b') /\ walk (ps_links st) y l2.
Proof.
  intros E. induction l as [|y l IH]; intros a IA W IL; [contradiction|]. rewrite last_cons in IL. destruct W as (ED & W).
  destruct (out_edge i b a y E IA ED) as [IY|(s & j & b' & C & EJ & LX & FY & _)].
  - destruct (IH y IY W IL) as (l1 & z & l2 & s & j & b' & -> & W1 & F1 & L1 & R). exists (y :: l1), z, l2, s, j, b'. split; [reflexivity|]. split; [split; assumption|]. split; [constructor; assumption|]. rewrite last_cons. split; [exact L1|exact R].
  - exists [], y, l, s, j, b'. split; [reflexivity|]. split; [exact I|]. split; [constructor; [exact IA|constructor]|]. split; [exact LX|]. auto.
Qed.
Lemma one_reads i b w : nth_error bs i = Some b -> reads st (k_first b) (k_last b) w <-> inner st b w.
Proof.
  intros E. destruct (b_in _ _ BL i b E) as (_ & IF & IL). split.
  - intros (a & l & FA & W & LA & T). exists a, l. split; [exact FA|]. split; [exact W|]. split; [exact (stay i b E l a (IF a FA) W (IL _ LA))|]. split; [exact LA|exact T].
  - intros (a & l & FA & W & _ & LA & T). exists a, l. auto.
Qed.
Definition part (j : nat) (p : list string) : Prop := exists b, nth_error bs j = Some b /\ inner st b p.
Lemma run_reads s : forall c i b bz, (forall x y, consec (i :: c) x y -> consec (pos s (owners bs)) x y) -> nth_error bs i = Some b -> nth_error bs (last c i) = Some bz ->
  forall w, reads st (k_first b) (k_last bz) w <-> exists parts, Forall2 part (i :: c) parts /\ w = concat parts.
Proof.
  induction c as [|j c IH]; intros i b bz CH E EZ w.
  - cbn [last] in EZ. rewrite E in EZ. injection EZ as <-. rewrite (one_reads i b w E). split.
    + intros H. exists [w]. split; [constructor; [exists b; auto|constructor]|]. cbn [concat]. symmetry. apply app_nil_r.
    + intros (parts & F & ->). inversion F as [|? p ? ps (b' & E' & P) F2]; subst. inversion F2; subst. rewrite E in E'. injection E' as <-. cbn [concat]. rewrite app_nil_r. exact P.
  - rewrite last_cons in EZ.
    assert (CIJ : consec (pos s (owners bs)) i j) by (apply CH; apply consec_cons; left; auto).
    assert (CH' : forall x y, consec (j :: c) x y -> consec (pos s (owners bs)) x y) by (intros x y K; apply CH; apply consec_cons; right; exact K).
    assert (LIJ : i < j) by exact (consec_lt _ _ _ (pos_sorted s _) CIJ).
    assert (LJZ : j <= last c j). { clear - CH'. revert j CH'. induction c as [|k c IH]; intros j CH'; [cbn; lia|]. rewrite last_cons. assert (j < k) by (apply (consec_lt _ _ _ (pos_sorted s (owners bs))), CH'; apply consec_cons; left; auto). assert (k <= last c k) by (apply IH; intros x y K; apply CH'; apply consec_cons; right; exact K). lia. }
    assert (EJ : exists bj, nth_error bs j = Some bj). { destruct (nth_error bs j) as [bj|] eqn:K; [eauto|]. apply nth_error_None in K. assert (last c j < length bs) by (apply nth_error_Some; rewrite EZ; discriminate). lia. }
    destruct EJ as (bj & EJ). destruct (b_in _ _ BL i b E) as (_ & IF & IL). destruct (b_in _ _ BL _ bz EZ) as (_ & _ & ILZ). split.
    + intros (a & l & FA & W & LA & T).
      assert (NI : ~ inb b (last l a)). { intros K. pose proof (same_block i (last c j) b bz _ E EZ K (ILZ _ LA)). lia. }
      destruct (leave i b E l a (IF a FA) W NI) as (l1 & y & l2 & s' & j' & bj' & -> & W1 & F1 & L1 & C & EJ' & FY & W2).
      assert (s' = s). { pose proof (proj1 (consec_in _ _ _ CIJ)) as A. pose proof (proj1 (consec_in _ _ _ C)) as B. apply pos_in in A, B. destruct A as (_ & <-), B as (_ & <-). reflexivity. } subst s'.
      pose proof (consec_fun _ _ _ _ (sorted_nodup _ (pos_sorted s _)) C CIJ). subst j'. rewrite EJ in EJ'. injection EJ' as <-.
      assert (R : reads st (k_first bj) (k_last bz) (map (srct st) (y :: l2))). { exists y, l2. split; [exact FY|]. split; [exact W2|]. split; [|reflexivity]. rewrite last_in_tail in LA. exact LA. }
      apply (IH j bj bz CH' EJ EZ) in R. destruct R as (parts & FP & ER). exists (map (srct st) (a :: l1) :: parts). split.
      * constructor; [|exact FP]. exists b. split; [exact E|]. exists a, l1. auto.
      * cbn [concat]. rewrite <- ER, <- map_app. rewrite <- T. reflexivity.
    + intros (parts & F & ->). inversion F as [|? p ? ps (b' & E' & P) F2]; subst. rewrite E in E'. injection E' as <-.
      assert (R : reads st (k_first bj) (k_last bz) (concat ps)) by (apply (IH j bj bz CH' EJ EZ); exists ps; auto). destruct R as (y & l2 & FY & W2 & LZ & T2). destruct P as (a & l1 & FA & W1 & _ & L1 & T1).
      exists a, (l1 ++ y :: l2). split; [exact FA|]. split.
      * apply walk_app. split; [exact W1|]. split; [|exact W2]. apply (b_joined _ _ BL). exists s, i, j, b, bj. auto.
      * rewrite last_in_tail. split; [exact LZ|]. cbn [concat]. rewrite <- T1, <- T2. change (a :: l1 ++ y :: l2) with ((a :: l1) ++ y :: l2). rewrite map_app. reflexivity.
Qed.
End Walks.

(** Readings inside the tokens of a word depend on them alone. *)
Lemma inner_same st st' b w : (forall x y, inb b x -> inb b y -> edge (ps_links st) x y -> edge (ps_links st') x y) -> (forall x, inb b x -> srct st' x = srct st x) -> inner st b w -> inner st' b w.
Proof.
  intros HE HS (a & l & FA & W & F & LA & T). exists a, l. split; [exact FA|]. split; [|split; [exact F|split; [exact LA|]]].
  - clear - HE W F. revert a W F. induction l as [|y l IH]; intros a W F; [exact I|]. destruct W as (ED & W). inversion F as [|? ? IA F2]; subst. split; [apply HE; [exact IA|inversion F2; assumption|exact ED]|exact (IH y W F2)].
  - rewrite <- T. apply map_ext_in. intros x Hx. apply HS. rewrite Forall_forall in F. exact (F x Hx).
Qed.
