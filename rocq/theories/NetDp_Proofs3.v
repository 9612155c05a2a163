(** The alignment found is an alignment of least cost. *)
From Coq Require Import List ZArith Arith Bool Lia.
From Verif Require Import Base Net_Model Net_Spec Net_Proofs1 Net_Proofs2 NetDp_Model NetDp_Spec NetDp_Proofs1 NetDp_Proofs2.
Import ListNotations.
Local Open Scope res_scope.

Section Two.
Context {D : Type}.
Variable wwd : option D -> option D -> res Z.
Variable equal : option D -> option D -> bool.
Variable is_null : option D -> bool.
Variable is_opt : option D -> bool.
Variable empty : D.
Variable w : option D -> option D -> Z.
Variable Wm : Z.

Variables A B : net D.
Variables (h g : nat) (xs ys : list nat).
Hypothesis WA : wf_net A.
Hypothesis OA : n_out A (n_start A) = [h].
Hypothesis NDA : NoDup xs.
Hypothesis AllA : forall x, In x xs <-> exists u, In x (n_out A u).
Hypothesis OrdA : arcs_ordered A xs.
Hypothesis FA : exists tl, xs = h :: tl.
Hypothesis WB : wf_net B.
Hypothesis OB : n_out B (n_start B) = [g].
Hypothesis NDB : NoDup ys.
Hypothesis AllB : forall x, In x ys <-> exists u, In x (n_out B u).
Hypothesis OrdB : arcs_ordered B ys.
Hypothesis FB : exists tl, ys = g :: tl.

Hypothesis Hw : forall x y, x <> None \/ y <> None -> wwd x y = Ok (w x y).
Hypothesis HWm : (0 <= Wm)%Z.
Hypothesis Hle : forall x y, (w x y <= Wm)%Z.
Hypothesis Hbig : (Wm * (Z.of_nat (length xs) + Z.of_nat (length ys)) < BIG_END)%Z.
Hypothesis DA : forall x, In x xs -> x <> h -> n_data A x <> None.
Hypothesis DB : forall x, In x ys -> x <> g -> n_data B x <> None.

Local Notation na := (length xs).
Local Notation nb := (length ys).
Local Notation pa := (preds A xs).
Local Notation pb := (preds B ys).
Local Notation dA a := (n_data A (arcat xs a)).
Local Notation dB b := (n_data B (arcat ys b)).
Definition wd (a : nat) : Z := w (dA a) None.
Definition wi (b : nat) : Z := w None (dB b).
Definition ws (a b : nat) : Z := w (dA a) (dB b).

Let Hpa := preds_ok A h xs WA OA NDA AllA OrdA FA.
Let Hpb := preds_ok B g ys WB OB NDB AllB OrdB FB.
Let npa : 0 < na := len_pos h xs FA.
Let npb : 0 < nb := len_pos g ys FB.

Lemma dA_some : forall a, 0 < a < na -> dA a <> None.
Proof.
  intros a Ha. apply DA; [apply arcat_In; lia|]. intros E. rewrite <- (arcat_0 h xs FA) in E.
  assert (index_of (arcat xs a) xs = index_of (arcat xs 0) xs) by now rewrite E. rewrite !index_arcat in H by (try exact NDA; lia). lia.
Qed.
Lemma dB_some : forall b, 0 < b < nb -> dB b <> None.
Proof.
  intros a Ha. apply DB; [apply arcat_In; lia|]. intros E. rewrite <- (arcat_0 g ys FB) in E.
  assert (index_of (arcat ys a) ys = index_of (arcat ys 0) ys) by now rewrite E. rewrite !index_arcat in H by (try exact NDB; lia). lia.
Qed.

Lemma calc_insert_ok : forall T a b, b < nb -> calc_insert T B ys a b = Ok (pick (BIG, None) (ins_list pb T a b)).
Proof.
  intros T a b Hb. unfold calc_insert. rewrite get_ok by exact Hb. cbn [rbind].
  apply (fold_pick _ (fun y => find_id ys y b) (fun k => c_min (T a k)) (fun k => Some k) (fun y => index_of y ys)).
  intros y Hy. apply (find_pred B ys WB NDB AllB OrdB); assumption.
Qed.
Lemma calc_delete_ok : forall T a b, a < na -> calc_delete T A xs a b = Ok (pick (BIG, None) (del_list pa T a b)).
Proof.
  intros T a b Ha. unfold calc_delete. rewrite get_ok by exact Ha. cbn [rbind].
  apply (fold_pick _ (fun y => find_id xs y a) (fun k => c_min (T k b)) (fun k => Some k) (fun y => index_of y xs)).
  intros y Hy. apply (find_pred A xs WA NDA AllA OrdA); assumption.
Qed.
Lemma calc_substi_ok : forall T a b, a < na -> b < nb -> calc_substi T A B xs ys a b = Ok (pick (BIG, (None, None)) (sub_list pa pb T a b)).
Proof.
  intros T a b Ha Hb. unfold calc_substi. rewrite !get_ok by assumption. cbn [rbind].
  apply (fold_pick2 _ (fun y => find_id xs y a) (fun y => find_id ys y b) (fun k l => c_min (T k l)) (fun k l => (Some k, Some l)) (fun y => index_of y xs) (fun y => index_of y ys)).
  - intros y Hy. apply (find_pred A xs WA NDA AllA OrdA); assumption.
  - intros y Hy. apply (find_pred B ys WB NDB AllB OrdB); assumption.
Qed.

Local Notation Tab := (table_of na nb pa pb wd wi ws).
Lemma fill_table_ok : forall T, fill_table wwd A B xs ys T = Ok (Tab T).
Proof.
  intros T. unfold fill_table, table_of.
  rewrite (rfold_ok _ _ _ (stepb pb wi)). 2:{ intros b T' Hb. apply in_seq in Hb. unfold margin_b. rewrite calc_insert_ok by lia.
    cbn [rbind]. rewrite get_ok by lia. cbn [rbind]. rewrite Hw by (right; apply dB_some; lia). reflexivity. }
  cbn [rbind]. rewrite (rfold_ok _ _ _ (stepa pa wd)). 2:{ intros a T' Ha. apply in_seq in Ha. unfold margin_a. rewrite calc_delete_ok by lia.
    cbn [rbind]. rewrite get_ok by lia. cbn [rbind]. rewrite Hw by (left; apply dA_some; lia). reflexivity. }
  cbn [rbind]. apply rfold_ok. intros [a b] T' Hab. apply in_prod_iff in Hab. destruct Hab as [Ha Hb]. apply in_seq in Ha. apply in_seq in Hb.
  unfold internal. rewrite calc_insert_ok, calc_delete_ok, calc_substi_ok by lia. cbn [rbind]. rewrite !get_ok by lia. cbn [rbind].
  rewrite !Hw by (first [left; apply dA_some; lia|right; apply dB_some; lia]). reflexivity.
Qed.

Lemma HbigT : (Wm * (Z.of_nat na + Z.of_nat nb) < BIG)%Z.
Proof. unfold BIG_END, BIG in *. lia. Qed.
Lemma tab_good : forall T a b, a < na -> b < nb -> good na nb pa pb wd wi ws a b (Tab T a b).
Proof.
  intros T. apply (table_good na nb pa pb wd wi ws Wm Hpa Hpb HWm); [intros; apply Hle|intros; apply Hle|exact HbigT|exact npa|exact npb].
Qed.

(** ** The trace back *)
Variable nulls : bool.
Definition shown1 (e : item) : bool :=
  nulls || negb (match e with
                 | (Some a, Some b) => is_null (dA a) && is_null (dB b)
                 | (Some a, None) => is_null (dA a)
                 | (None, Some b) => is_null (dB b)
                 | (None, None) => false
                 end).
Definition entry1 (e : item) : step D :=
  match e with
  | (Some a, Some b) => (dA a, dB b, if equal (dA a) (dB b) then PCorr else PSub)
  | (Some a, None) => if is_opt (dA a) then (dA a, Some empty, PCorr) else (dA a, None, PDel)
  | (None, Some b) => if is_opt (dB b) then (Some empty, dB b, PCorr) else (None, dB b, PIns)
  | (None, None) => (None, None, PCorr)
  end.

Lemma filter_snoc : forall (f : item -> bool) s e, filter f (s ++ [e]) = filter f s ++ (if f e then [e] else []).
Proof. intros. rewrite filter_app. reflexivity. Qed.

Lemma trace : forall T fuel a b, a + b <= fuel -> a < na -> b < nb ->
  exists s, R na nb pa pb wd wi ws a b (c_min (Tab T a b)) s /\
    (forall hops, count is_null nulls A B xs ys (Tab T) fuel a b hops = Ok (hops + length (filter shown1 s))) /\
    (forall room acc, entries equal is_null is_opt empty nulls A B xs ys (Tab T) fuel a b (room + length (filter shown1 s)) acc
       = Ok (room, map entry1 (filter shown1 s) ++ acc)).
Proof.
  intros T. set (TT := Tab T). induction fuel as [|fuel IH]; intros a b Hf Ha Hb.
  - replace a with 0 in * by lia. replace b with 0 in * by lia. exists [].
    destruct (tab_good T 0 0 Ha Hb) as [Ho _]. fold TT in Ho.
    rewrite (isopt_unique _ _ _ _ _ _ _ _ _ _ _ Ho (proj1 (good_00 na nb pa pb wd wi ws))). cbn.
    split; [constructor|]. split; [intros hops; now rewrite Nat.add_0_r|intros room acc; now rewrite Nat.add_0_r].
  - destruct (tab_good T a b Ha Hb) as [Ho Hback]. fold TT in Ho, Hback. destruct Hback as [H0|(a' & b' & wt & e & Ea & Eb & Hm & Ho')].
    + replace a with 0 in * by lia. replace b with 0 in * by lia. exists [].
      rewrite (isopt_unique _ _ _ _ _ _ _ _ _ _ _ Ho (proj1 (good_00 na nb pa pb wd wi ws))). cbn.
      split; [constructor|]. split; [intros hops; now rewrite Nat.add_0_r|intros room acc; now rewrite Nat.add_0_r].
    + destruct (mv_bounds na nb pa pb wd wi ws Hpa Hpb a' b' a b wt e Hm Ha Hb) as (Ba & Bb & Blt & Bda & Bdb).
      destruct (IH a' b' ltac:(lia) Ba Bb) as (s & HR & HC & HE).
      assert (Eo : (c_min (TT a b) = c_min (TT a' b') + wt)%Z).
      { pose proof (isopt_unique _ _ _ _ _ _ _ _ _ _ _ Ho' (proj1 (tab_good T a' b' Ba Bb))) as Eq. fold TT in Eq. lia. }
      exists (s ++ [e]). split; [rewrite Eo; apply (R_snoc _ _ _ _ _ _ _ a' b'); assumption|].
      assert (E00 : (a =? 0) && (b =? 0) = false).
      { destruct (Nat.eqb_spec a 0); [|reflexivity]. destruct (Nat.eqb_spec b 0); [lia|reflexivity]. }
      assert (Epa : points a (c_a (TT a b)) = (a =? a')) by (rewrite Ea; reflexivity).
      assert (Epb : points b (c_b (TT a b)) = (b =? b')) by (rewrite Eb; reflexivity).
      split.
      * intros hops. cbn [count]. rewrite E00, !get_ok by assumption. cbn [rbind]. rewrite Epa, Epb, Ea, Eb.
        rewrite filter_snoc, app_length. apply mv_inv in Hm.
        destruct Hm as [(-> & B1 & B2 & -> & ->)|[(-> & A1 & A2 & -> & ->)|(A1 & B1 & A2 & B2 & -> & ->)]].
        -- pose proof (proj2 (Hpb b B1) _ B2). rewrite (proj2 (Nat.eqb_neq b b')) by lia. rewrite Nat.eqb_refl.
           unfold shown1 at 2. destruct (is_null (dB b)), nulls; cbn; rewrite HC; f_equal; lia.
        -- rewrite Nat.eqb_refl. unfold shown1 at 2. destruct (is_null (dA a)), nulls; cbn; rewrite HC; f_equal; lia.
        -- pose proof (proj2 (Hpa a A1) _ A2). pose proof (proj2 (Hpb b B1) _ B2).
           rewrite (proj2 (Nat.eqb_neq b b')) by lia. rewrite (proj2 (Nat.eqb_neq a a')) by lia.
           unfold shown1 at 2. destruct (is_null (dA a)), (is_null (dB b)), nulls; cbn; rewrite HC; f_equal; lia.
      * intros room acc. cbn [entries]. rewrite E00, !get_ok by assumption. cbn [rbind]. rewrite Epa, Epb, Ea, Eb.
        rewrite filter_snoc, app_length, map_app, <- app_assoc. apply mv_inv in Hm.
        assert (G : shown1 e = true -> forall r', r' = put (room + (length (filter shown1 s) + length [e])) (entry1 e) acc ->
           (let* r := r' in entries equal is_null is_opt empty nulls A B xs ys TT fuel a' b' (fst r) (snd r))
           = Ok (room, map entry1 (filter shown1 s) ++ map entry1 [e] ++ acc)).
        { intros _ r' ->. rewrite (Nat.add_comm (length (filter shown1 s))), Nat.add_assoc, (Nat.add_comm room). cbn [length Nat.add put rbind fst snd].
          apply HE. }
        assert (G2 : (let* r := Ok (room + (length (filter shown1 s) + 0), acc) in entries equal is_null is_opt empty nulls A B xs ys TT fuel a' b' (fst r) (snd r))
           = Ok (room, map entry1 (filter shown1 s) ++ map entry1 [] ++ acc)).
        { cbn [rbind fst snd map app]. rewrite Nat.add_0_r. apply HE. }
        destruct Hm as [(-> & B1 & B2 & -> & ->)|[(-> & A1 & A2 & -> & ->)|(A1 & B1 & A2 & B2 & -> & ->)]].
        -- rewrite Nat.eqb_refl. destruct (nulls || negb (is_null (dB b))) eqn:Esh.
           ++ assert (Es : shown1 (None, Some b) = true) by exact Esh. rewrite Es. apply (G Es). reflexivity.
           ++ assert (Es : shown1 (None, Some b) = false) by exact Esh. rewrite Es. exact G2.
        -- pose proof (proj2 (Hpa a A1) _ A2). rewrite (proj2 (Nat.eqb_neq a a')) by lia. rewrite Nat.eqb_refl.
           destruct (nulls || negb (is_null (dA a))) eqn:Esh.
           ++ assert (Es : shown1 (Some a, None) = true) by exact Esh. rewrite Es. apply (G Es). reflexivity.
           ++ assert (Es : shown1 (Some a, None) = false) by exact Esh. rewrite Es. exact G2.
        -- pose proof (proj2 (Hpa a A1) _ A2). pose proof (proj2 (Hpb b B1) _ B2).
           rewrite (proj2 (Nat.eqb_neq b b')) by lia. rewrite (proj2 (Nat.eqb_neq a a')) by lia.
           destruct (nulls || negb (is_null (dA a) && is_null (dB b))) eqn:Esh.
           ++ assert (Es : shown1 (Some a, Some b) = true) by exact Esh. rewrite Es. apply (G Es). reflexivity.
           ++ assert (Es : shown1 (Some a, Some b) = false) by exact Esh. rewrite Es. exact G2.
Qed.

(** ** The last arcs *)
Variables sa sb : nat.
Hypothesis SA : n_stop A = Some sa.
Hypothesis SB : n_stop B = Some sb.
Definition last_pair (a b : nat) : Prop := a < na /\ b < nb /\ In (arcat xs a) (n_in A sa) /\ In (arcat ys b) (n_in B sb).

Lemma stop_in : forall (N : net D) t, wf_net N -> n_stop N = Some t -> exists x, In x (n_in N t).
Proof.
  intros N t W E. pose proof (wf_stop N W) as H. rewrite E in H. destruct H as (_ & _ & H1 & zs & Hp).
  destruct (exists_last (l := zs)) as (l & z & ->); [intros ->; apply npath_nil in Hp; congruence|].
  apply npath_split in Hp. destruct Hp as (v & _ & Hz). apply npath_one in Hz. destruct Hz as [Hz ->]. exists z. apply (wf_out N W z v Hz).
Qed.

Lemma find_end_ok : forall T, exists a b, find_end (Tab T) A B xs ys = Ok (c_min (Tab T a b), Some (a, b)) /\ last_pair a b /\
  forall a' b', last_pair a' b' -> (c_min (Tab T a b) <= c_min (Tab T a' b'))%Z.
Proof.
  intros T. unfold find_end. rewrite SA, SB. set (TT := Tab T).
  rewrite (fold_pick2 _ (fun x => find_id xs x na) (fun y => find_id ys y nb) (fun k l => c_min (TT k l)) (fun k l => Some (k, l))
    (fun y => index_of y xs) (fun y => index_of y ys)).
  2:{ intros y Hy. apply (find_last A xs WA NDA AllA sa). exact Hy. }
  2:{ intros y Hy. apply (find_last B ys WB NDB AllB sb). exact Hy. }
  set (L := flat_map _ _).
  assert (HL : forall p, In p L <-> exists a b, last_pair a b /\ p = (c_min (TT a b), Some (a, b))).
  { intros p. unfold L. rewrite in_flat_map. split.
    - intros (k & Hk & Hp). apply in_map_iff in Hk. destruct Hk as (x & <- & Hx). apply in_map_iff in Hp. destruct Hp as (l & <- & Hl).
      apply in_map_iff in Hl. destruct Hl as (y & <- & Hy). exists (index_of x xs), (index_of y ys). split; [|reflexivity].
      pose proof (in_arc A xs WA AllA x sa Hx) as Hxx. pose proof (in_arc B ys WB AllB y sb Hy) as Hyy.
      split; [apply index_of_lt; exact Hxx|]. split; [apply index_of_lt; exact Hyy|].
      rewrite !arcat_index by assumption. auto.
    - intros (a & b & (Ha & Hb & Hia & Hib) & ->). exists a. split.
      + apply in_map_iff. exists (arcat xs a). split; [apply index_arcat; assumption|exact Hia].
      + apply in_map_iff. exists b. split; [reflexivity|]. apply in_map_iff. exists (arcat ys b). split; [apply index_arcat; assumption|exact Hib]. }
  destruct (pick_some _ L (BIG_END, None)) as [H1 H2].
  - destruct (stop_in A sa WA SA) as (x & Hx). destruct (stop_in B sb WB SB) as (y & Hy).
    pose proof (in_arc A xs WA AllA x sa Hx) as Hxx. pose proof (in_arc B ys WB AllB y sb Hy) as Hyy.
    exists (c_min (TT (index_of x xs) (index_of y ys)), Some (index_of x xs, index_of y ys)).
    pose proof (index_of_lt x xs Hxx) as Lx. pose proof (index_of_lt y ys Hyy) as Ly. split.
    + apply HL. exists (index_of x xs), (index_of y ys). split; [|reflexivity]. split; [exact Lx|]. split; [exact Ly|]. rewrite !arcat_index by assumption. auto.
    + cbn [fst]. destruct (tab_good T _ _ Lx Ly) as [Ho _]. fold TT in Ho.
      destruct (opt_bound na nb pa pb wd wi ws Wm Hpa Hpb HWm ltac:(intros; apply Hle) ltac:(intros; apply Hle) HbigT _ _ _ Lx Ly Ho) as [Hc _]. nia.
  - apply HL in H1. destruct H1 as (a & b & Hl & E). exists a, b. split; [now rewrite E|]. split; [exact Hl|].
    intros a' b' Hl'. specialize (H2 (c_min (TT a' b'), Some (a', b'))). rewrite E in H2. cbn in H2. apply H2. apply HL. eauto.
Qed.

Theorem extract_ok : forall T, exists a b s,
  extract equal is_null is_opt empty nulls A B xs ys (Tab T) = Ok (Some (cost wd wi ws s), map entry1 (filter shown1 s)) /\
  last_pair a b /\ R na nb pa pb wd wi ws a b (cost wd wi ws s) s /\
  forall a' b' c' s', last_pair a' b' -> R na nb pa pb wd wi ws a' b' c' s' -> (cost wd wi ws s <= c')%Z.
Proof.
  intros T. destruct (find_end_ok T) as (a & b & E & Hl & Hmin). destruct Hl as (Ha & Hb & Hia & Hib).
  destruct (trace T (na + nb) a b ltac:(lia) Ha Hb) as (s & HR & HC & HE).
  assert (Ec : c_min (Tab T a b) = cost wd wi ws s) by (apply (R_chain _ _ _ _ _ _ _ _ _ _ _ HR)).
  exists a, b, s. split; [|split; [repeat split; assumption|split; [rewrite <- Ec; exact HR|]]].
  - unfold extract. rewrite E. cbn [rbind fst snd]. rewrite HC. cbn [rbind]. rewrite (HE 0 []). cbn [rbind fst snd].
    rewrite app_nil_r, Ec. reflexivity.
  - intros a' b' c' s' Hl' HR'. rewrite <- Ec. pose proof (Hmin a' b' Hl'). destruct Hl' as (Ha' & Hb' & _).
    destruct (tab_good T a' b' Ha' Hb') as [[_ Ho] _]. specialize (Ho c' s' HR'). lia.
Qed.
End Two.
