From Coq Require Import List Arith ZArith QArith Bool Permutation Sorted Lia.
From Verif Require Import Base Order_Model Det_Model Det_Spec.
From Verif Require Stats_Model Stats_Proofs.
Import ListNotations.
Local Open Scope res_scope.
Local Open Scope nat_scope.

(** ** Arrays *)
Lemma set_ok : forall A (l : list A) i x, i < length l ->
  set l i x = Ok (firstn i l ++ x :: skipn (S i) l).
Proof.
  induction l as [|y l IH]; intros i x H; cbn [length] in H; [lia|].
  destruct i as [|i]; cbn [set firstn skipn app]; [reflexivity|].
  rewrite IH by lia. reflexivity.
Qed.
Lemma set_out : forall A (l : list A) i x, length l <= i -> set l i x = Undef.
Proof.
  induction l as [|y l IH]; intros i x H; cbn [set]; [reflexivity|]. cbn [length] in H.
  destruct i as [|i]; [lia|]. rewrite IH by lia. reflexivity.
Qed.
Lemma vals_map : forall v r, vals (length v) (map Some v ++ r) = Ok v.
Proof. induction v as [|x v IH]; intros r; cbn [length map app vals]; [reflexivity|]. rewrite IH. reflexivity. Qed.
Lemma firstn_map_app : forall (v : list Q) r n, n = length v -> firstn n (map Some v ++ r) = map Some v.
Proof. intros v r n ->. rewrite firstn_app, firstn_all2 by (rewrite map_length; lia).
  rewrite map_length, Nat.sub_diag. cbn [firstn]. apply app_nil_r. Qed.
Lemma skipn_map_app : forall (v : list Q) r n, n = length v -> skipn n (map Some v ++ r) = r.
Proof. intros v r n ->. rewrite skipn_app, skipn_all2 by (rewrite map_length; lia).
  rewrite map_length, Nat.sub_diag. reflexivity. Qed.

(** an array with its values: the first [n] of [max] cells *)
Definition holds (cap : nat) (a : darr) (n max : nat) (v : list Q) : Prop :=
  exists r k, a = map Some v ++ r /\ n = length v /\ length a = max /\ max = cap * 2 ^ k /\
    (k = 0 \/ cap * 2 ^ (k - 1) < n).

Lemma pow_pos : forall k, 1 <= 2 ^ k.
Proof. induction k as [|k IH]; cbn [Nat.pow]; lia. Qed.

Lemma push_ok : forall cap a n max v x, 1 <= cap -> holds cap a n max v ->
  exists a' n' max', push a n max x = Ok (a', n', max') /\ holds cap a' n' max' (v ++ [x]).
Proof.
  intros cap a n max v x Hc (r & k & -> & -> & Hl & Hm & Hk).
  rewrite app_length, map_length in Hl. pose proof (pow_pos k) as Hp. unfold push.
  destruct (Nat.leb_spec max (length v)) as [H|H].
  - assert (max = length v) as Hv by lia.
    rewrite firstn_map_app by reflexivity. rewrite set_ok
      by (rewrite app_length, map_length, repeat_length; nia).
    cbn [rbind]. eexists _, _, _. split; [reflexivity|].
    exists (skipn 1 (repeat None (2 * max - length v))), (S k).
    repeat split.
    + rewrite firstn_map_app by reflexivity. rewrite map_app, <- app_assoc. f_equal. cbn [map app]. f_equal.
      replace (S (length v)) with (1 + length v) by lia.
      rewrite <- (skipn_map_app v (repeat None (2 * max - length v)) (length v) eq_refl) at 2.
      generalize (map Some v ++ repeat None (2 * max - length v)). clear.
      induction (length v) as [|m IH]; intros l; [reflexivity|]. destruct l as [|y l]; [destruct m; reflexivity|].
      apply IH.
    + rewrite app_length. cbn [length]. lia.
    + rewrite app_length. cbn [length]. rewrite skipn_length, firstn_length, app_length, map_length, repeat_length.
      nia.
    + cbn [Nat.pow]. lia.
    + right. replace (S k - 1) with k by lia. lia.
  - rewrite set_ok by (rewrite app_length, map_length; lia).
    cbn [rbind]. eexists _, _, _. split; [reflexivity|].
    exists (skipn 1 r), k. repeat split.
    + rewrite firstn_map_app by reflexivity. rewrite map_app, <- app_assoc. f_equal. cbn [map app]. f_equal.
      rewrite <- (skipn_map_app v r (length v) eq_refl) at 2.
      generalize (map Some v ++ r). clear.
      induction (length v) as [|m IH]; intros l; [reflexivity|]. destruct l as [|y l]; [destruct m; reflexivity|].
      apply IH.
    + rewrite app_length. cbn [length]. lia.
    + rewrite app_length. cbn [length]. rewrite skipn_length, firstn_length, app_length, map_length. lia.
    + exact Hm.
    + lia.
Qed.

(** ** The words are collected *)
Definition st_holds (cap : nat) (st : state) (t f : list Q) : Prop :=
  holds cap (d_targ st) (d_nt st) (d_maxt st) t /\ holds cap (d_non st) (d_nn st) (d_maxn st) f.
Definition corr_of (l : list step) : list Q :=
  map s_conf (filter (fun x => is_corr (s_eval x) && negb (s_empty x)) l).
Definition wrong_of (l : list step) : list Q := map s_conf (filter (fun x => is_wrong (s_eval x)) l).

Lemma collect_ok : forall cap, 1 <= cap -> forall l st t f, st_holds cap st t f ->
  exists st', collect st l = Ok st' /\ st_holds cap st' (t ++ corr_of l) (f ++ wrong_of l).
Proof.
  intros cap Hc. induction l as [|x l IH]; intros st t f [Ht Hf].
  - exists st. unfold corr_of, wrong_of. cbn [filter map]. rewrite !app_nil_r. repeat split; assumption.
  - cbn [collect]. unfold collect_step, corr_of, wrong_of. cbn [filter].
    destruct (s_eval x) eqn:E; cbn [is_corr is_wrong andb].
    + destruct (s_empty x); cbn [negb rbind].
      * apply IH. split; assumption.
      * destruct (push_ok cap _ _ _ _ (s_conf x) Hc Ht) as (a & n & m & -> & H). cbn [rbind].
        cbn [map]. destruct (IH {| d_targ := a; d_nt := n; d_maxt := m; d_non := d_non st; d_nn := d_nn st; d_maxn := d_maxn st |}
          (t ++ [s_conf x]) f) as (st' & -> & H'); [split; assumption|]. exists st'. split; [reflexivity|].
        rewrite <- app_assoc in H'. exact H'.
    + destruct (push_ok cap _ _ _ _ (s_conf x) Hc Hf) as (a & n & m & -> & H). cbn [rbind].
      cbn [map]. destruct (IH {| d_targ := d_targ st; d_nt := d_nt st; d_maxt := d_maxt st; d_non := a; d_nn := n; d_maxn := m |}
          t (f ++ [s_conf x])) as (st' & -> & H'); [split; assumption|]. exists st'. split; [reflexivity|].
      rewrite <- app_assoc in H'. exact H'.
    + destruct (push_ok cap _ _ _ _ (s_conf x) Hc Hf) as (a & n & m & -> & H). cbn [rbind].
      cbn [map]. destruct (IH {| d_targ := d_targ st; d_nt := d_nt st; d_maxt := d_maxt st; d_non := a; d_nn := n; d_maxn := m |}
          t (f ++ [s_conf x])) as (st' & -> & H'); [split; assumption|]. exists st'. split; [reflexivity|].
      rewrite <- app_assoc in H'. exact H'.
    + cbn [rbind]. apply IH. split; assumption.
    + cbn [rbind]. apply IH. split; assumption.
    + cbn [rbind]. apply IH. split; assumption.
Qed.

(** ** Sorting and marking *)
Lemma room_lt : forall cap a n max v, holds cap a n max v -> room cap n -> n < max.
Proof.
  intros cap a n max v (r & k & -> & -> & Hl & Hm & _) H. rewrite app_length, map_length in Hl.
  specialize (H k). lia.
Qed.
Lemma marked_ok : forall cap a n max v, holds cap a n max v -> n < max ->
  exists r, sorted_marked a n = Ok (map Some (Stats_Model.qsort v ++ [smax]) ++ r) /\
    n + 1 + length r = max /\ (Forall (eq (Some 0%Q)) (skipn n a) -> Forall (eq (Some 0%Q)) r).
Proof.
  intros cap a n max v (r & k & -> & -> & Hl & Hm & _) H. rewrite app_length, map_length in Hl.
  unfold sorted_marked. rewrite vals_map. cbn [rbind]. rewrite skipn_map_app by reflexivity.
  assert (length (Stats_Model.qsort v) = length v) as Hq
    by (apply Permutation_length, Stats_Proofs.qsort_perm).
  rewrite set_ok by (rewrite app_length, map_length; lia).
  rewrite firstn_map_app by lia. destruct r as [|y r]; [cbn [length] in Hl; lia|].
  exists r. split; [|split].
  - f_equal. rewrite map_app, <- app_assoc. f_equal. cbn [map app]. f_equal.
    rewrite <- Hq, skipn_app, skipn_all2 by (rewrite map_length; lia). rewrite map_length.
    replace (S (length (Stats_Model.qsort v)) - length (Stats_Model.qsort v)) with 1 by lia. reflexivity.
  - cbn [length] in Hl. lia.
  - intros F. inversion F; assumption.
Qed.
Lemma marked_full : forall cap a n max v, holds cap a n max v -> n = max -> sorted_marked a n = Undef.
Proof.
  intros cap a n max v (r & k & -> & -> & Hl & Hm & _) H. rewrite app_length, map_length in Hl.
  unfold sorted_marked. rewrite vals_map. cbn [rbind]. rewrite skipn_map_app by reflexivity.
  apply set_out. rewrite app_length, map_length.
  rewrite (Permutation_length (Stats_Proofs.qsort_perm v)). lia.
Qed.
