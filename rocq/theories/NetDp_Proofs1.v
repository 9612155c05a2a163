(** The dynamic programming table on the numbers of the arcs. *)
From Coq Require Import List ZArith Arith Bool Lia.
From Verif Require Import Base Net_Model NetDp_Model.
Import ListNotations.
Local Open Scope res_scope.

(** ** First minima *)
Definition pick {K} (best : Z * K) (l : list (Z * K)) : Z * K :=
  fold_left (fun b p => better b (fst p) (snd p)) l best.

Lemma pick_le : forall K (l : list (Z * K)) best, (fst (pick best l) <= fst best)%Z /\
  (forall p, In p l -> fst (pick best l) <= fst p)%Z /\ (pick best l = best \/ In (pick best l) l).
Proof.
  intros K. induction l as [|p l IH]; intros best; cbn.
  - split; [lia|]. split; [intros q []|auto].
  - destruct (IH (better best (fst p) (snd p))) as (H1 & H2 & H3). unfold pick in *.
    assert (Hb : (fst (better best (fst p) (snd p)) <= fst best /\ fst (better best (fst p) (snd p)) <= fst p)%Z).
    { unfold better. destruct (Z.ltb_spec (fst p) (fst best)); cbn; lia. }
    split; [lia|]. split; [intros q [<-|Hq]; [lia|auto]|].
    destruct H3 as [H3|H3]; [|auto]. rewrite H3. unfold better. destruct (fst p <? fst best)%Z; [right; left; destruct p; reflexivity|auto].
Qed.
Lemma pick_some : forall K (l : list (Z * K)) best, (exists p, In p l /\ fst p < fst best)%Z ->
  In (pick best l) l /\ (forall p, In p l -> fst (pick best l) <= fst p)%Z.
Proof.
  intros K l best (p & Hp & Hlt). destruct (pick_le K l best) as (H1 & H2 & H3). split; [|exact H2].
  destruct H3 as [H3|H3]; [|exact H3]. specialize (H2 p Hp). rewrite H3 in H2. lia.
Qed.
Lemma pick_app : forall K (l1 l2 : list (Z * K)) best, pick best (l1 ++ l2) = pick (pick best l1) l2.
Proof. intros. unfold pick. apply fold_left_app. Qed.

(** ** Scripts on numbers *)
Section Abs.
Variables (na nb : nat) (pa pb : nat -> list nat).
Variables (wd wi : nat -> Z) (ws : nat -> nat -> Z) (W : Z).
Hypothesis Hpa : forall a, 0 < a < na -> pa a <> [] /\ forall k, In k (pa a) -> k < a.
Hypothesis Hpb : forall b, 0 < b < nb -> pb b <> [] /\ forall k, In k (pb b) -> k < b.
Hypothesis HW : (0 <= W)%Z.
Hypothesis Hwd : forall a, 0 < a < na -> (wd a <= W)%Z.
Hypothesis Hwi : forall b, 0 < b < nb -> (wi b <= W)%Z.
Hypothesis Hbig : (W * (Z.of_nat na + Z.of_nat nb) < BIG)%Z.

Definition item : Type := (option nat * option nat)%type.
(** One step from cell [a',b'] to cell [a,b], its cost and its pair. *)
Inductive mv : nat -> nat -> nat -> nat -> Z -> item -> Prop :=
| mv_ins : forall a b k, 0 < b < nb -> In k (pb b) -> mv a k a b (wi b) (None, Some b)
| mv_del : forall a b k, 0 < a < na -> In k (pa a) -> mv k b a b (wd a) (Some a, None)
| mv_sub : forall a b k l, 0 < a < na -> 0 < b < nb -> In k (pa a) -> In l (pb b) -> mv k l a b (ws a b) (Some a, Some b).
Inductive R : nat -> nat -> Z -> list item -> Prop :=
| R_nil : R 0 0 0 []
| R_snoc : forall a' b' a b c w s e, R a' b' c s -> mv a' b' a b w e -> R a b (c + w) (s ++ [e]).
Definition isopt (a b : nat) (c : Z) : Prop := (exists s, R a b c s) /\ forall c' s, R a b c' s -> (c <= c')%Z.

Lemma mv_inv : forall a' b' a b w e, mv a' b' a b w e ->
  (a' = a /\ 0 < b < nb /\ In b' (pb b) /\ w = wi b /\ e = (None, Some b)) \/
  (b' = b /\ 0 < a < na /\ In a' (pa a) /\ w = wd a /\ e = (Some a, None)) \/
  (0 < a < na /\ 0 < b < nb /\ In a' (pa a) /\ In b' (pb b) /\ w = ws a b /\ e = (Some a, Some b)).
Proof. intros a' b' a b w e H. destruct H; auto 10. Qed.

Lemma isopt_unique : forall a b c c', isopt a b c -> isopt a b c' -> c = c'.
Proof. intros a b c c' [(s & H1) H2] [(s' & H3) H4]. specialize (H2 _ _ H3). specialize (H4 _ _ H1). lia. Qed.

Lemma R_bound : forall n a b, a + b < n -> a < na -> b < nb -> exists c s, R a b c s /\ (c <= W * (Z.of_nat a + Z.of_nat b))%Z.
Proof.
  induction n as [|n IH]; intros a b Hn Ha Hb; [lia|]. destruct a as [|a].
  - destruct b as [|b]; [exists 0%Z, []; split; [constructor|nia]|].
    destruct (Hpb (S b)) as [Hne Hlt]; [lia|]. destruct (pb (S b)) as [|k r] eqn:E; [congruence|].
    assert (Hk : k < S b) by (apply Hlt; now left). destruct (IH 0 k) as (c & s & H1 & H2); [lia..|].
    exists (c + wi (S b))%Z, (s ++ [(None, Some (S b))]). split.
    + apply (R_snoc 0 k); [exact H1|]. constructor; [lia|rewrite E; now left].
    + specialize (Hwi (S b) ltac:(lia)). nia.
  - destruct (Hpa (S a)) as [Hne Hlt]; [lia|]. destruct (pa (S a)) as [|k r] eqn:E; [congruence|].
    assert (Hk : k < S a) by (apply Hlt; now left). destruct (IH k b) as (c & s & H1 & H2); [lia..|].
    exists (c + wd (S a))%Z, (s ++ [(Some (S a), None)]). split.
    + apply (R_snoc k b); [exact H1|]. constructor; [lia|rewrite E; now left].
    + specialize (Hwd (S a) ltac:(lia)). nia.
Qed.
Lemma opt_bound : forall a b c, a < na -> b < nb -> isopt a b c -> (c <= W * (Z.of_nat a + Z.of_nat b) /\ c < BIG)%Z.
Proof.
  intros a b c Ha Hb [_ H]. destruct (R_bound (S (a + b)) a b) as (c' & s & H1 & H2); [lia..|]. specialize (H c' s H1). split; [lia|]. nia.
Qed.

(** The cell [a,b] holds the least cost and points to a cell from which it is reached. *)
Definition good (a b : nat) (c : cell) : Prop :=
  isopt a b (c_min c) /\
  (a + b = 0 \/ exists a' b' w e, c_a c = Some a' /\ c_b c = Some b' /\ mv a' b' a b w e /\ isopt a' b' (c_min c - w)).

Lemma good_00 : good 0 0 {| c_min := 0; c_a := None; c_b := None |}.
Proof.
  split; [|now left]. cbn. split; [exists []; constructor|]. intros c' s H. inversion H as [|a' b' a b c w s' e H1 H2]; subst; [lia|].
  inversion H2; subst; lia.
Qed.

(** A cell that is minimal among all ways in is optimal. *)
Lemma opt_intro : forall a b c, 0 < a + b -> (exists a' b' c' w e, mv a' b' a b w e /\ isopt a' b' c' /\ c = (c' + w)%Z) ->
  (forall a' b' c' w e, mv a' b' a b w e -> isopt a' b' c' -> (c <= c' + w)%Z) ->
  (forall a' b' w e, mv a' b' a b w e -> exists c', isopt a' b' c') -> isopt a b c.
Proof.
  intros a b c H0 (a' & b' & c' & w & e & H1 & H2 & ->) H3 H4. split.
  - destruct (proj1 H2) as (s & Hs). exists (s ++ [e]). apply (R_snoc a' b'); assumption.
  - intros c1 s1 H. inversion H as [|a1 b1 ? ? c2 w1 s2 e1 HR Hm]; subst; [lia|].
    destruct (H4 _ _ _ _ Hm) as (o & Ho). specialize (H3 _ _ _ _ _ Hm Ho). pose proof (proj2 Ho _ _ HR). lia.
Qed.

(** The computed minima, as lists. *)
Definition ins_list (T : table) a b := map (fun k => (c_min (T a k), Some k)) (pb b).
Definition del_list (T : table) a b := map (fun k => (c_min (T k b), Some k)) (pa a).
Definition sub_list (T : table) a b :=
  flat_map (fun k => map (fun l => (c_min (T k l), (Some k, Some l))) (pb b)) (pa a).

Lemma pick_ins : forall (T : table) a b, a < na -> 0 < b < nb -> (forall k, In k (pb b) -> good a k (T a k)) ->
  exists k, In k (pb b) /\ pick (BIG, None) (ins_list T a b) = (c_min (T a k), Some k) /\
    forall k', In k' (pb b) -> (c_min (T a k) <= c_min (T a k'))%Z.
Proof.
  intros T a b Ha Hb Hg. destruct (Hpb b Hb) as [Hne Hlt].
  destruct (pick_some _ (ins_list T a b) (BIG, None)) as [H1 H2].
  { destruct (pb b) as [|k r] eqn:E; [congruence|]. exists (c_min (T a k), Some k). unfold ins_list. rewrite E. split; [now left|]. cbn [fst].
    assert (k < b) by (apply Hlt; now left). apply (opt_bound a k); [lia|lia|]. apply Hg. now left. }
  pose proof H1 as H1'. apply in_map_iff in H1'. destruct H1' as (k & Ek & Hk). exists k. split; [exact Hk|]. split; [now rewrite Ek|].
  intros k' Hk'. specialize (H2 (c_min (T a k'), Some k')). rewrite <- Ek in H2. apply H2. unfold ins_list. apply in_map_iff. eauto.
Qed.
Lemma pick_del : forall (T : table) a b, 0 < a < na -> b < nb -> (forall k, In k (pa a) -> good k b (T k b)) ->
  exists k, In k (pa a) /\ pick (BIG, None) (del_list T a b) = (c_min (T k b), Some k) /\
    forall k', In k' (pa a) -> (c_min (T k b) <= c_min (T k' b))%Z.
Proof.
  intros T a b Ha Hb Hg. destruct (Hpa a Ha) as [Hne Hlt].
  destruct (pick_some _ (del_list T a b) (BIG, None)) as [H1 H2].
  { destruct (pa a) as [|k r] eqn:E; [congruence|]. exists (c_min (T k b), Some k). unfold del_list. rewrite E. split; [now left|]. cbn [fst].
    assert (k < a) by (apply Hlt; now left). apply (opt_bound k b); [lia|lia|]. apply Hg. now left. }
  pose proof H1 as H1'. apply in_map_iff in H1'. destruct H1' as (k & Ek & Hk). exists k. split; [exact Hk|]. split; [now rewrite Ek|].
  intros k' Hk'. specialize (H2 (c_min (T k' b), Some k')). rewrite <- Ek in H2. apply H2. unfold del_list. apply in_map_iff. eauto.
Qed.
Lemma sub_list_in : forall T a b p, In p (sub_list T a b) <-> exists k l, In k (pa a) /\ In l (pb b) /\ p = (c_min (T k l), (Some k, Some l)).
Proof.
  intros T a b p. unfold sub_list. rewrite in_flat_map. split.
  - intros (k & Hk & Hp). apply in_map_iff in Hp. destruct Hp as (l & <- & Hl). eauto.
  - intros (k & l & Hk & Hl & ->). exists k. split; [exact Hk|]. apply in_map_iff. eauto.
Qed.
Lemma pick_sub : forall (T : table) a b, 0 < a < na -> 0 < b < nb -> (forall k l, In k (pa a) -> In l (pb b) -> good k l (T k l)) ->
  exists k l, In k (pa a) /\ In l (pb b) /\ pick (BIG, (None, None)) (sub_list T a b) = (c_min (T k l), (Some k, Some l)) /\
    forall k' l', In k' (pa a) -> In l' (pb b) -> (c_min (T k l) <= c_min (T k' l'))%Z.
Proof.
  intros T a b Ha Hb Hg. destruct (Hpa a Ha) as [Hne Hlt]. destruct (Hpb b Hb) as [Hneb Hltb].
  destruct (pick_some _ (sub_list T a b) (BIG, (None, None))) as [H1 H2].
  { destruct (pa a) as [|k r] eqn:E; [congruence|]. destruct (pb b) as [|l rb] eqn:Eb; [congruence|].
    exists (c_min (T k l), (Some k, Some l)). split; [apply sub_list_in; exists k, l; rewrite E, Eb; repeat split; now left|]. cbn [fst].
    assert (k < a) by (apply Hlt; now left). assert (l < b) by (apply Hltb; now left).
    apply (opt_bound k l); [lia|lia|]. apply Hg; now left. }
  pose proof H1 as H1'. apply sub_list_in in H1'. destruct H1' as (k & l & Hk & Hl & Ek). exists k, l. split; [exact Hk|]. split; [exact Hl|].
  split; [exact Ek|]. intros k' l' Hk' Hl'. specialize (H2 (c_min (T k' l'), (Some k', Some l'))). rewrite Ek in H2. apply H2.
  apply sub_list_in. eauto 6.
Qed.

(** The new cells. *)
Definition cell_b (T : table) b : cell :=
  let m := pick (BIG, None) (ins_list T 0 b) in {| c_min := fst m + wi b; c_a := Some 0; c_b := snd m |}.
Definition cell_a (T : table) a : cell :=
  let m := pick (BIG, None) (del_list T a 0) in {| c_min := fst m + wd a; c_a := snd m; c_b := Some 0 |}.
Definition cell_ab (T : table) a b : cell :=
  let mi := pick (BIG, None) (ins_list T a b) in
  let md := pick (BIG, None) (del_list T a b) in
  let ms := pick (BIG, (None, None)) (sub_list T a b) in
  let s := (fst ms + ws a b)%Z in let d := (fst md + wd a)%Z in let i := (fst mi + wi b)%Z in
  if (s <=? d)%Z && (s <=? i)%Z then {| c_min := s; c_a := fst (snd ms); c_b := snd (snd ms) |}
  else if (d <? i)%Z then {| c_min := d; c_a := snd md; c_b := Some b |}
  else {| c_min := i; c_a := Some a; c_b := snd mi |}.

Lemma good_b : forall T b, 0 < na -> 0 < b < nb -> (forall k, k < b -> good 0 k (T 0 k)) -> good 0 b (cell_b T b).
Proof.
  intros T b Hna Hb Hg. destruct (Hpb b Hb) as [_ Hlt].
  destruct (pick_ins T 0 b Hna Hb) as (k & Hk & E & Hmin); [auto|]. unfold cell_b. rewrite E. cbn.
  assert (Hgk : good 0 k (T 0 k)) by auto. split; cbn.
  - apply opt_intro; [lia| | |].
    + exists 0, k, (c_min (T 0 k)), (wi b), (None, Some b). split; [constructor; assumption|]. split; [apply Hgk|reflexivity].
    + intros a' b' c' w e Hm Ho. apply mv_inv in Hm; destruct Hm as [(-> & B1 & B2 & -> & ->)|[(-> & A1 & A2 & -> & ->)|(A1 & B1 & A2 & B2 & -> & ->)]]; try lia. pose proof (isopt_unique _ _ _ _ Ho (proj1 (Hg b' (Hlt _ B2)))).
      specialize (Hmin b' B2). lia.
    + intros a' b' w e Hm. apply mv_inv in Hm; destruct Hm as [(-> & B1 & B2 & -> & ->)|[(-> & A1 & A2 & -> & ->)|(A1 & B1 & A2 & B2 & -> & ->)]]; try lia. exists (c_min (T 0 b')). apply Hg. auto.
  - right. exists 0, k, (wi b), (None, Some b). split; [reflexivity|]. split; [reflexivity|]. split; [constructor; assumption|].
    replace (c_min (T 0%nat k) + wi b - wi b)%Z with (c_min (T 0%nat k)) by lia. apply Hgk.
Qed.
Lemma good_a : forall T a, 0 < nb -> 0 < a < na -> (forall k, k < a -> good k 0 (T k 0)) -> good a 0 (cell_a T a).
Proof.
  intros T a Hnb Ha Hg. destruct (Hpa a Ha) as [_ Hlt].
  destruct (pick_del T a 0 Ha Hnb) as (k & Hk & E & Hmin); [auto|]. unfold cell_a. rewrite E. cbn.
  assert (Hgk : good k 0 (T k 0)) by auto. split; cbn.
  - apply opt_intro; [lia| | |].
    + exists k, 0, (c_min (T k 0)), (wd a), (Some a, None). split; [constructor; assumption|]. split; [apply Hgk|reflexivity].
    + intros a' b' c' w e Hm Ho. apply mv_inv in Hm; destruct Hm as [(-> & B1 & B2 & -> & ->)|[(-> & A1 & A2 & -> & ->)|(A1 & B1 & A2 & B2 & -> & ->)]]; try lia. pose proof (isopt_unique _ _ _ _ Ho (proj1 (Hg a' (Hlt _ A2)))).
      specialize (Hmin a' A2). lia.
    + intros a' b' w e Hm. apply mv_inv in Hm; destruct Hm as [(-> & B1 & B2 & -> & ->)|[(-> & A1 & A2 & -> & ->)|(A1 & B1 & A2 & B2 & -> & ->)]]; try lia. exists (c_min (T a' 0)). apply Hg. auto.
  - right. exists k, 0, (wd a), (Some a, None). split; [reflexivity|]. split; [reflexivity|]. split; [constructor; assumption|].
    replace (c_min (T k 0%nat) + wd a - wd a)%Z with (c_min (T k 0%nat)) by lia. apply Hgk.
Qed.
Lemma good_ab : forall T a b, 0 < a < na -> 0 < b < nb ->
  (forall i j, i <= a -> j <= b -> i < a \/ j < b -> good i j (T i j)) -> good a b (cell_ab T a b).
Proof.
  intros T a b Ha Hb Hg. destruct (Hpa a Ha) as [_ Hlta]. destruct (Hpb b Hb) as [_ Hltb].
  destruct (pick_ins T a b) as (ki & Hki & Ei & Hmi); [lia|exact Hb|intros k Hk; apply Hltb in Hk; apply Hg; lia|].
  destruct (pick_del T a b) as (kd & Hkd & Ed & Hmd); [exact Ha|lia|intros k Hk; apply Hlta in Hk; apply Hg; lia|].
  destruct (pick_sub T a b) as (ks & ls & Hks & Hls & Es & Hms); [exact Ha|exact Hb|intros k l Hk Hl; apply Hlta in Hk; apply Hltb in Hl; apply Hg; lia|].
  assert (Gi : good a ki (T a ki)) by (pose proof (Hltb _ Hki); apply Hg; lia).
  assert (Gd : good kd b (T kd b)) by (pose proof (Hlta _ Hkd); apply Hg; lia).
  assert (Gs : good ks ls (T ks ls)) by (pose proof (Hlta _ Hks); pose proof (Hltb _ Hls); apply Hg; lia).
  assert (Hex : forall a' b' w e, mv a' b' a b w e -> exists c', isopt a' b' c').
  { intros a' b' w e Hm. exists (c_min (T a' b')). apply mv_inv in Hm; destruct Hm as [(-> & B1 & B2 & -> & ->)|[(-> & A1 & A2 & -> & ->)|(A1 & B1 & A2 & B2 & -> & ->)]].
    - pose proof (Hltb _ B2). apply Hg; lia.
    - pose proof (Hlta _ A2). apply Hg; lia.
    - pose proof (Hlta _ A2). pose proof (Hltb _ B2). apply Hg; lia. }
  assert (Hall : forall m, (m <= c_min (T ks ls) + ws a b -> m <= c_min (T kd b) + wd a -> m <= c_min (T a ki) + wi b ->
     forall a' b' c' w e, mv a' b' a b w e -> isopt a' b' c' -> m <= c' + w)%Z).
  { intros m M1 M2 M3 a' b' c' w e Hm Ho. apply mv_inv in Hm; destruct Hm as [(-> & B1 & B2 & -> & ->)|[(-> & A1 & A2 & -> & ->)|(A1 & B1 & A2 & B2 & -> & ->)]].
    - pose proof (Hltb _ B2). assert (G : good a b' (T a b')) by (apply Hg; lia).
      pose proof (isopt_unique _ _ _ _ Ho (proj1 G)). specialize (Hmi b' B2). lia.
    - pose proof (Hlta _ A2). assert (G : good a' b (T a' b)) by (apply Hg; lia).
      pose proof (isopt_unique _ _ _ _ Ho (proj1 G)). specialize (Hmd a' A2). lia.
    - pose proof (Hlta _ A2). pose proof (Hltb _ B2). assert (G : good a' b' (T a' b')) by (apply Hg; lia).
      pose proof (isopt_unique _ _ _ _ Ho (proj1 G)). specialize (Hms a' b' A2 B2). lia. }
  unfold cell_ab. rewrite Ei, Ed, Es. cbn [fst snd].
  destruct (Z.leb_spec (c_min (T ks ls) + ws a b) (c_min (T kd b) + wd a)) as [L1|L1];
  [destruct (Z.leb_spec (c_min (T ks ls) + ws a b) (c_min (T a ki) + wi b)) as [L2|L2]|]; cbn [andb].
  { split; cbn.
    - apply opt_intro; [lia| | |exact Hex].
      + exists ks, ls, (c_min (T ks ls)), (ws a b), (Some a, Some b). split; [constructor; assumption|]. split; [apply Gs|reflexivity].
      + apply Hall; lia.
    - right. exists ks, ls, (ws a b), (Some a, Some b). split; [reflexivity|]. split; [reflexivity|]. split; [constructor; assumption|].
      replace (c_min (T ks ls) + ws a b - ws a b)%Z with (c_min (T ks ls)) by lia. apply Gs. }
  all: destruct (Z.ltb_spec (c_min (T kd b) + wd a) (c_min (T a ki) + wi b)) as [L3|L3]; (split; cbn;
    [ apply opt_intro; [lia| |apply Hall; lia|exact Hex]
    | right ]).
  all: try (exists kd, b, (c_min (T kd b)), (wd a), (Some a, None); split; [constructor; assumption|]; split; [apply Gd|reflexivity]).
  all: try (exists a, ki, (c_min (T a ki)), (wi b), (None, Some b); split; [constructor; assumption|]; split; [apply Gi|reflexivity]).
  all: try (exists kd, b, (wd a), (Some a, None); split; [reflexivity|]; split; [reflexivity|]; split; [constructor; assumption|];
      replace (c_min (T kd b) + wd a - wd a)%Z with (c_min (T kd b)) by lia; apply Gd).
  all: try (exists a, ki, (wi b), (None, Some b); split; [reflexivity|]; split; [reflexivity|]; split; [constructor; assumption|];
      replace (c_min (T a ki) + wi b - wi b)%Z with (c_min (T a ki)) by lia; apply Gi).
Qed.

(** The whole table. *)
Definition stepb (T : table) (b : nat) : table := tset T 0 b (cell_b T b).
Definition stepa (T : table) (a : nat) : table := tset T a 0 (cell_a T a).
Definition stepab (T : table) (ab : nat * nat) : table := tset T (fst ab) (snd ab) (cell_ab T (fst ab) (snd ab)).
Definition table_of (T : table) : table :=
  let T1 := tset T 0 0 {| c_min := 0; c_a := None; c_b := None |} in
  let T2 := fold_left stepb (seq 1 (nb - 1)) T1 in
  let T3 := fold_left stepa (seq 1 (na - 1)) T2 in
  fold_left stepab (list_prod (seq 1 (na - 1)) (seq 1 (nb - 1))) T3.

Lemma tset_same : forall T a b c, tset T a b c a b = c.
Proof. intros. unfold tset. now rewrite !Nat.eqb_refl. Qed.
Lemma tset_other : forall T a b c i j, (i, j) <> (a, b) -> tset T a b c i j = T i j.
Proof.
  intros. unfold tset. destruct (Nat.eqb_spec i a); [|reflexivity]. destruct (Nat.eqb_spec j b); [|reflexivity]. subst. congruence.
Qed.

Lemma margin_b_good : forall m (T : table), 0 < na -> m < nb -> good 0 0 (T 0 0) ->
  let T' := fold_left stepb (seq 1 m) T in
  forall b, b <= m -> good 0 b (T' 0 b).
Proof.
  induction m as [|m IH]; intros T Hna Hm H0; [intros T' b Hb; replace b with 0 by lia; exact H0|].
  rewrite seq_S, fold_left_app. cbn [fold_left Nat.add]. set (T1 := fold_left stepb (seq 1 m) T). unfold stepb. intros b Hb.
  specialize (IH T Hna ltac:(lia) H0). fold T1 in IH. cbn zeta in IH. destruct (Nat.eq_dec b (S m)) as [->|Hne].
  - rewrite tset_same. apply good_b; [exact Hna|lia|]. intros k Hk. apply IH. lia.
  - rewrite tset_other by congruence. apply IH. lia.
Qed.
Lemma margin_a_good : forall m (T : table), 0 < nb -> m < na -> good 0 0 (T 0 0) ->
  let T' := fold_left stepa (seq 1 m) T in
  (forall a, a <= m -> good a 0 (T' a 0)) /\ (forall b, 0 < b -> T' 0 b = T 0 b).
Proof.
  induction m as [|m IH]; intros T Hna Hm H0; [split; [intros a Ha; replace a with 0 by lia; exact H0|reflexivity]|].
  rewrite seq_S, fold_left_app. cbn [fold_left Nat.add]. set (T1 := fold_left stepa (seq 1 m) T). unfold stepa.
  destruct (IH T Hna ltac:(lia) H0) as [IH1 IH2]. fold T1 in IH1, IH2. split.
  - intros a Ha. destruct (Nat.eq_dec a (S m)) as [->|Hne].
    + rewrite tset_same. apply good_a; [exact Hna|lia|]. intros k Hk. apply IH1. lia.
    + rewrite tset_other by congruence. apply IH1. lia.
  - intros b Hb. rewrite tset_other by congruence. apply IH2. exact Hb.
Qed.
(** Row by row. *)
Lemma row_good : forall m (T : table) a, 0 < a < na -> m < nb -> (forall i j, i < a -> j < nb -> good i j (T i j)) -> good a 0 (T a 0) ->
  let T' := fold_left stepab (map (fun b => (a, b)) (seq 1 m)) T in
  (forall b, b <= m -> good a b (T' a b)) /\ (forall i j, i <> a -> T' i j = T i j).
Proof.
  induction m as [|m IH]; intros T a Ha Hm H1 H0; [split; [intros b Hb; replace b with 0 by lia; exact H0|reflexivity]|].
  rewrite seq_S, map_app, fold_left_app. cbn [fold_left Nat.add map]. set (T1 := fold_left stepab (map (fun b => (a, b)) (seq 1 m)) T). unfold stepab. cbn [fst snd].
  destruct (IH T a Ha ltac:(lia) H1 H0) as [IH1 IH2]. fold T1 in IH1, IH2. split.
  - intros b Hb. destruct (Nat.eq_dec b (S m)) as [->|Hne].
    + rewrite tset_same. apply good_ab; [exact Ha|lia|]. intros i j Hi Hj Hij. destruct (Nat.eq_dec i a) as [->|Hia].
      * apply IH1. lia.
      * rewrite IH2 by exact Hia. apply H1; lia.
    + rewrite tset_other by congruence. apply IH1. lia.
  - intros i j Hi. rewrite tset_other by congruence. apply IH2. exact Hi.
Qed.
Lemma rows_good : forall m (T : table), m < na -> 0 < nb -> (forall b, b < nb -> good 0 b (T 0 b)) -> (forall a, a < na -> good a 0 (T a 0)) ->
  let T' := fold_left stepab (list_prod (seq 1 m) (seq 1 (nb - 1))) T in
  (forall a b, a <= m -> b < nb -> good a b (T' a b)) /\ (forall i j, m < i -> T' i j = T i j).
Proof.
  induction m as [|m IH]; intros T Hm Hnb Hr Hc; [split; [intros a b Ha Hb; replace a with 0 by lia; apply Hr; exact Hb|reflexivity]|].
  assert (E : list_prod (seq 1 (S m)) (seq 1 (nb - 1)) = list_prod (seq 1 m) (seq 1 (nb - 1)) ++ map (fun b => (S m, b)) (seq 1 (nb - 1))).
  { rewrite seq_S. change (1 + m) with (S m). generalize (seq 1 m). intros l. induction l as [|x l IHl]; cbn [app list_prod]; [rewrite app_nil_r; reflexivity|].
    rewrite IHl. now rewrite app_assoc. }
  rewrite E, fold_left_app. set (T1 := fold_left stepab (list_prod (seq 1 m) (seq 1 (nb - 1))) T). intros T'.
  destruct (IH T ltac:(lia) Hnb Hr Hc) as [IH1 IH2]. fold T1 in IH1, IH2.
  destruct (row_good (nb - 1) T1 (S m)) as [R1 R2]; [lia|lia|intros i j Hi Hj; apply IH1; lia|rewrite IH2 by lia; apply Hc; lia|].
  fold T' in R1, R2. split.
  - intros a b Ha Hb. destruct (Nat.eq_dec a (S m)) as [->|Hne]; [apply R1; lia|]. rewrite R2 by exact Hne. apply IH1; lia.
  - intros i j Hi. rewrite R2 by lia. apply IH2. lia.
Qed.
Theorem table_good : forall T, 0 < na -> 0 < nb -> forall a b, a < na -> b < nb -> good a b (table_of T a b).
Proof.
  intros T Hna Hnb a b Ha Hb. unfold table_of.
  set (T1 := tset T 0 0 {| c_min := 0; c_a := None; c_b := None |}). set (T2 := fold_left stepb (seq 1 (nb - 1)) T1). set (T3 := fold_left stepa (seq 1 (na - 1)) T2).
  assert (H1 : good 0 0 (T1 0 0)) by (unfold T1; rewrite tset_same; apply good_00).
  assert (H2 : forall b, b <= nb - 1 -> good 0 b (T2 0 b)) by (apply margin_b_good; [exact Hna|lia|exact H1]).
  destruct (margin_a_good (na - 1) T2 Hnb ltac:(lia) (H2 0 ltac:(lia))) as [H3 H4]. fold T3 in H3, H4.
  destruct (rows_good (na - 1) T3) as [H5 _]; [lia|exact Hnb| |intros k Hk; apply H3; lia|apply H5; lia].
  intros k Hk. destruct k as [|k]; [apply H3; lia|]. rewrite H4 by lia. apply H2. lia.
Qed.

(** ** Scripts and chains *)
Inductive chain (p : nat -> list nat) (n : nat) : nat -> list nat -> Prop :=
| ch_nil : chain p n 0 []
| ch_snoc : forall k a l, chain p n k l -> 0 < a < n -> In k (p a) -> chain p n a (l ++ [a]).
Definition lefts (s : list item) : list nat := flat_map (fun p => match fst p with Some x => [x] | None => [] end) s.
Definition rights (s : list item) : list nat := flat_map (fun p => match snd p with Some x => [x] | None => [] end) s.
Definition cost1 (e : item) : Z :=
  match e with (Some a, Some b) => ws a b | (Some a, None) => wd a | (None, Some b) => wi b | (None, None) => 0 end.
Fixpoint cost (s : list item) : Z := match s with [] => 0 | e :: r => (cost1 e + cost r)%Z end.
Lemma cost_app : forall s1 s2, cost (s1 ++ s2) = (cost s1 + cost s2)%Z.
Proof. induction s1; intros; cbn [cost app]; [lia|rewrite IHs1; lia]. Qed.
Lemma lefts_app : forall s1 s2, lefts (s1 ++ s2) = lefts s1 ++ lefts s2.
Proof. intros. apply flat_map_app. Qed.
Lemma rights_app : forall s1 s2, rights (s1 ++ s2) = rights s1 ++ rights s2.
Proof. intros. apply flat_map_app. Qed.

Lemma R_chain : forall a b c s, R a b c s -> chain pa na a (lefts s) /\ chain pb nb b (rights s) /\ ~ In (None, None) s /\ c = cost s.
Proof.
  intros a b c s H. induction H as [|a' b' a b c w s e H (H1 & H2 & H3 & H4) Hm]; [repeat split; try constructor; auto|].
  rewrite lefts_app, rights_app, cost_app. subst c. inversion Hm; subst; cbn [lefts rights flat_map fst snd app cost cost1].
  all: rewrite ?app_nil_r.
  all: split; [first [assumption|econstructor; eassumption]|]; split; [first [assumption|econstructor; eassumption]|].
  all: split; [|lia]; intros Hc; apply in_app_or in Hc; destruct Hc as [Hc|[Hc|[]]]; [auto|discriminate].
Qed.
Lemma chain_nil_inv : forall p n a, chain p n a [] -> a = 0.
Proof. clear. intros p n a H. remember (@nil nat) as m eqn:E. destruct H as [|k a l H1 H2 H3]; [reflexivity|]. destruct l; discriminate. Qed.
Lemma chain_snoc_inv : forall p n a l x, chain p n a (l ++ [x]) -> x = a /\ 0 < a < n /\ exists k, chain p n k l /\ In k (p a).
Proof.
  clear. intros p n a l x H. remember (l ++ [x]) as m eqn:E. destruct H as [|k a l' H1 H2 H3]; [destruct l; discriminate|].
  apply app_inj_tail in E. destruct E as [-> ->]. eauto 6.
Qed.
Lemma chain_R : forall s a b, chain pa na a (lefts s) -> chain pb nb b (rights s) -> ~ In (None, None) s -> R a b (cost s) s.
Proof.
  clear Hpa Hpb HW Hwd Hwi Hbig. induction s as [|e s IH] using rev_ind; intros a b Ha Hb Hn.
  - apply chain_nil_inv in Ha. apply chain_nil_inv in Hb. subst. constructor.
  - rewrite lefts_app in Ha. rewrite rights_app in Hb. rewrite cost_app.
    assert (Hs : ~ In (None, None) s) by (intros Hc; apply Hn, in_or_app; now left).
    assert (He : e <> (None, None)) by (intros ->; apply Hn, in_or_app; right; now left).
    destruct e as [[x|] [y|]]; cbn [lefts rights flat_map fst snd app cost cost1] in *; rewrite ?app_nil_r in *; try congruence;
    rewrite Z.add_0_r.
    + apply chain_snoc_inv in Ha. destruct Ha as (-> & Ha & k & Hk & Hki).
      apply chain_snoc_inv in Hb. destruct Hb as (-> & Hb & l & Hl & Hli). eapply R_snoc; [apply IH; eassumption|constructor; assumption].
    + apply chain_snoc_inv in Ha. destruct Ha as (-> & Ha & k & Hk & Hki). eapply R_snoc; [apply IH; eassumption|constructor; assumption].
    + apply chain_snoc_inv in Hb. destruct Hb as (-> & Hb & l & Hl & Hli). eapply R_snoc; [apply IH; eassumption|constructor; assumption].
Qed.
Lemma R_bounds : forall a b c s, 0 < na -> 0 < nb -> R a b c s -> a < na /\ b < nb.
Proof.
  intros a b c s Hna Hnb H. induction H as [|a' b' a b c w s e H IH Hm]; [lia|]. inversion Hm; subst; lia.
Qed.
Lemma mv_bounds : forall a' b' a b w e, mv a' b' a b w e -> a < na -> b < nb -> a' < na /\ b' < nb /\ a' + b' < a + b /\
  (a' = a \/ a' < a) /\ (b' = b \/ b' < b).
Proof.
  intros a' b' a b w e Hm Ha Hb. apply mv_inv in Hm; destruct Hm as [(-> & B1 & B2 & -> & ->)|[(-> & A1 & A2 & -> & ->)|(A1 & B1 & A2 & B2 & -> & ->)]].
  - pose proof (proj2 (Hpb b B1) _ B2). lia.
  - pose proof (proj2 (Hpa a A1) _ A2). lia.
  - pose proof (proj2 (Hpa a A1) _ A2). pose proof (proj2 (Hpb b B1) _ B2). lia.
Qed.
End Abs.
