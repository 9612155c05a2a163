(** Proofs about Merge_Model: paths of merged networks. *)
From Coq Require Import List ZArith Arith Bool Lia.
From Verif Require Import Base Net_Model Net_Spec Net_Proofs1 Net_Proofs2 Merge_Model.
Import ListNotations.

Section Merge.
Context {D : Type}.
Variables (N M : net D) (u v t : nat).
Hypothesis WN : wf_net N.
Hypothesis WM : wf_net M.
Hypothesis ST : n_stop M = Some t.
Hypothesis Lu : u < n_nodes N.
Hypothesis Lv : v < n_nodes N.
Let N' := merge_at N u v M t.
Let dn := n_nodes N.
Let da := n_arcs N.
Let s := n_start M.
Notation sh := (Nat.add da).

Lemma Lu' : u <? dn = true.
Proof. apply Nat.ltb_lt, Lu. Qed.
Lemma Lv' : v <? dn = true.
Proof. apply Nat.ltb_lt, Lv. Qed.
Lemma stop_facts : t < n_nodes M /\ n_out M t = [] /\ t <> s /\ exists xs, npath M s xs t.
Proof. pose proof (wf_stop M WM) as H. rewrite ST in H. exact H. Qed.
(** Where a node of M ends up. *)
Definition place (m : nat) : nat := if m =? s then u else if m =? t then v else dn + m.

Lemma out_old_lt x n : In x (n_out N n) -> x < da.
Proof. intros H. apply (wf_out N WN x n H). Qed.
Lemma nodup_app_sh (l l' : list nat) : NoDup l -> NoDup l' -> (forall x, In x l -> x < da) -> NoDup (l ++ map sh l').
Proof.
  intros H1 H2 H3. apply NoDup_app_intro; [exact H1| |].
  - apply FinFun.Injective_map_NoDup; [|exact H2]. intros a b E. lia.
  - intros x I J. apply in_map_iff in J. destruct J as (y & <- & _). specialize (H3 _ I). lia.
Qed.
Lemma in_old_lt x n : In x (n_in N n) -> x < da.
Proof. intros H. destruct (wf_in N WN x n H) as [_ H2]. exact (out_old_lt _ _ H2). Qed.
Lemma out_u : n_out N' u = n_out N u ++ map sh (n_out M s).
Proof.
  unfold N', merge_at; cbn [n_out]. fold dn. rewrite Lu', Nat.eqb_refl.
  apply add_arcs_app, nodup_app_sh; [apply (wf_nd_out N WN)|apply (wf_nd_out M WM)|]. intros x. apply out_old_lt.
Qed.
Lemma out_old n : n < dn -> n <> u -> n_out N' n = n_out N n.
Proof. intros L NE. unfold N', merge_at; cbn [n_out]. fold dn. rewrite (proj2 (Nat.ltb_lt _ _) L), (proj2 (Nat.eqb_neq _ _) NE). reflexivity. Qed.
Lemma out_new m : m <> s -> n_out N' (dn + m) = map sh (n_out M m).
Proof.
  intros NE. unfold N', merge_at; cbn [n_out]. fold dn s. rewrite (proj2 (Nat.ltb_ge (dn + m) dn)) by lia. replace (dn + m - dn) with m by lia.
  rewrite (proj2 (Nat.eqb_neq _ _) NE). reflexivity.
Qed.
Lemma out_new_start : n_out N' (dn + s) = [].
Proof.
  unfold N', merge_at; cbn [n_out]. fold dn s. rewrite (proj2 (Nat.ltb_ge (dn + s) dn)) by lia. replace (dn + s - dn) with s by lia.
  rewrite Nat.eqb_refl. reflexivity.
Qed.
Lemma in_v' : n_in N' v = n_in N v ++ map sh (n_in M t).
Proof.
  unfold N', merge_at; cbn [n_in]. fold dn. rewrite Lv', Nat.eqb_refl.
  apply add_arcs_app, nodup_app_sh; [apply (wf_nd_in N WN)|apply (wf_nd_in M WM)|]. intros x. apply in_old_lt.
Qed.
Lemma in_old n : n < dn -> n <> v -> n_in N' n = n_in N n.
Proof. intros L NE. unfold N', merge_at; cbn [n_in]. fold dn. rewrite (proj2 (Nat.ltb_lt _ _) L), (proj2 (Nat.eqb_neq _ _) NE). reflexivity. Qed.
Lemma in_new m : m <> t -> n_in N' (dn + m) = map sh (n_in M m).
Proof.
  intros NE. unfold N', merge_at; cbn [n_in]. fold dn. rewrite (proj2 (Nat.ltb_ge (dn + m) dn)) by lia. replace (dn + m - dn) with m by lia.
  rewrite (proj2 (Nat.eqb_neq _ _) NE). reflexivity.
Qed.
Lemma in_new_stop : n_in N' (dn + t) = [].
Proof.
  unfold N', merge_at; cbn [n_in]. fold dn. rewrite (proj2 (Nat.ltb_ge (dn + t) dn)) by lia. replace (dn + t - dn) with t by lia.
  rewrite Nat.eqb_refl. reflexivity.
Qed.
Lemma to_old x : x < da -> n_to N' x = n_to N x.
Proof. intros L. unfold N', merge_at; cbn [n_to]. fold da. rewrite (proj2 (Nat.ltb_lt _ _) L). reflexivity. Qed.
Lemma from_old x : x < da -> n_from N' x = n_from N x.
Proof. intros L. unfold N', merge_at; cbn [n_from]. fold da. rewrite (proj2 (Nat.ltb_lt _ _) L). reflexivity. Qed.
Lemma to_new x m : In x (n_out M m) -> n_to N' (sh x) = place (n_to M x).
Proof.
  intros I. unfold N', merge_at; cbn [n_to]. fold da dn. rewrite (proj2 (Nat.ltb_ge (da + x) da)) by lia. replace (da + x - da) with x by lia.
  unfold place. rewrite (proj2 (Nat.eqb_neq (n_to M x) s)) by (apply (no_entry M x m WM I)).
  destruct (wf_out M WM x m I) as (_ & _ & _ & _ & J). destruct (mem x (n_in M t)) eqn:E.
  - apply mem_In in E. destruct (wf_in M WM x t E) as [ET _]. rewrite (proj2 (Nat.eqb_eq _ _) ET). reflexivity.
  - destruct (Nat.eqb_spec (n_to M x) t) as [X|X]; [|reflexivity]. rewrite X in J. apply mem_false in E. contradiction.
Qed.
Lemma from_new x m : In x (n_out M m) -> n_from N' (sh x) = if m =? s then u else dn + m.
Proof.
  intros I. unfold N', merge_at; cbn [n_from]. fold da dn s. rewrite (proj2 (Nat.ltb_ge (da + x) da)) by lia. replace (da + x - da) with x by lia.
  destruct (wf_out M WM x m I) as (E & _). destruct (mem x (n_out M s)) eqn:X.
  - apply mem_In in X. destruct (wf_out M WM x s X) as (E2 & _). assert (EM : m = s) by congruence. rewrite (proj2 (Nat.eqb_eq _ _) EM). reflexivity.
  - destruct (Nat.eqb_spec m s) as [->|NE]; [apply mem_false in X; contradiction|]. rewrite E. reflexivity.
Qed.
Lemma data_old' x : x < da -> n_data N' x = n_data N x.
Proof. intros L. unfold N', merge_at; cbn [n_data]. fold da. rewrite (proj2 (Nat.ltb_lt _ _) L). reflexivity. Qed.
Lemma data_new x : n_data N' (sh x) = n_data M x.
Proof. unfold N', merge_at; cbn [n_data]. fold da. rewrite (proj2 (Nat.ltb_ge (da + x) da)) by lia. f_equal. lia. Qed.
Lemma m_node x m : In x (n_out M m) -> m <> t.
Proof. intros I ->. destruct stop_facts as (_ & E & _). rewrite E in I. exact I. Qed.
Lemma in_place x m : In x (n_out M m) -> In (sh x) (n_out N' (place m)).
Proof.
  intros I. pose proof (m_node x m I) as NT. unfold place. destruct (Nat.eqb_spec m s) as [->|NE].
  - rewrite out_u. apply in_app_iff. right. apply in_map. exact I.
  - rewrite (proj2 (Nat.eqb_neq _ _) NT), out_new by exact NE. apply in_map. exact I.
Qed.

(** Paths. *)
Inductive mp : nat -> list (nat + list nat) -> nat -> Prop :=
| mp_nil a : mp a [] a
| mp_arc a x r b : In x (n_out N a) -> mp (n_to N x) r b -> mp a (inl x :: r) b
| mp_sub p r b : npath M s p t -> mp v r b -> mp u (inr p :: r) b.
Definition flat (i : nat + list nat) : list nat := match i with inl x => [x] | inr p => map sh p end.
Definition flats (r : list (nat + list nat)) : list nat := concat (map flat r).

Lemma sub_path m xs m' : npath M m xs m' -> npath N' (place m) (map sh xs) (place m').
Proof.
  induction 1 as [m|m x xs m' I P IH]; [constructor|]. cbn [map]. constructor; [apply in_place, I|]. rewrite (to_new x m I). exact IH.
Qed.
Lemma place_s : place s = u.
Proof. unfold place. rewrite Nat.eqb_refl. reflexivity. Qed.
Lemma place_t : place t = v.
Proof. unfold place. destruct stop_facts as (_ & _ & NE & _). rewrite (proj2 (Nat.eqb_neq _ _) NE), Nat.eqb_refl. reflexivity. Qed.
Lemma old_arc x a : a < dn -> In x (n_out N a) -> In x (n_out N' a).
Proof.
  intros L I. destruct (Nat.eq_dec a u) as [->|NE]; [rewrite out_u; apply in_app_iff; auto|rewrite out_old by assumption; exact I].
Qed.
Lemma to_lt x a : In x (n_out N a) -> n_to N x < dn.
Proof. intros I. apply (wf_out N WN x a I). Qed.
Lemma mp_path a r b : a < dn -> mp a r b -> npath N' a (flats r) b.
Proof.
  intros L P. induction P as [a|a x r b I P IH|p r b Q P IH]; [constructor| |].
  - cbn [flats map concat flat app]. constructor; [apply old_arc; assumption|]. rewrite to_old by (eapply out_old_lt, I). apply IH. eapply to_lt, I.
  - cbn [flats map concat flat]. eapply npath_app; [|apply IH, Lv]. rewrite <- place_s, <- place_t. apply sub_path, Q.
Qed.
(** A path that begins inside M leaves it at the stop. *)
Lemma leave n : forall m ys b, length ys < n -> m < n_nodes M -> m <> s -> npath N' (place m) ys b -> b < dn ->
  (exists x, In x (n_out M m)) \/ m = t ->
  exists p zs, npath M m p t /\ ys = map sh p ++ zs /\ npath N' v zs b.
Proof.
  induction n as [|n IH]; intros m ys b L Lm NE P Lb HO; [lia|].
  destruct (Nat.eq_dec m t) as [->|NT].
  { exists [], ys. split; [constructor|]. split; [reflexivity|]. rewrite place_t in P. exact P. }
  assert (EP : place m = dn + m) by (unfold place; rewrite (proj2 (Nat.eqb_neq _ _) NE), (proj2 (Nat.eqb_neq _ _) NT); reflexivity).
  rewrite EP in P. inversion P as [|? y ys' ? I P' E1 E2 E3]; subst; [lia|]. rewrite out_new in I by exact NE. apply in_map_iff in I.
  destruct I as (x & <- & I). rewrite (to_new x m I) in P'. destruct (wf_out M WM x m I) as (_ & _ & _ & LT & J). cbn [length] in L.
  destruct (IH (n_to M x) ys' b) as (p & zs & A & -> & C); [lia|exact LT|apply (no_entry M x m WM I)|exact P'|exact Lb| |].
  - destruct (wf_coreach M WM x m I) as (t' & xs & Et & Q). assert (t' = t) by congruence. subst t'.
    destruct (Nat.eq_dec (n_to M x) t) as [E|NE2]; [right; exact E|left]. inversion Q as [|? z ? ? Iz]; subst; [congruence|eauto].
  - exists (x :: p), zs. split; [constructor; assumption|]. split; [reflexivity|exact C].
Qed.
Lemma path_mp n : forall a ys b, length ys < n -> a < dn -> b < dn -> npath N' a ys b -> exists r, mp a r b /\ ys = flats r.
Proof.
  induction n as [|n IH]; intros a ys b L La Lb P; [lia|]. inversion P as [|? y ys' ? I P' E1 E2 E3]; subst; [exists []; split; [constructor|reflexivity]|].
  cbn [length] in L. assert (HI : In y (n_out N a) \/ (a = u /\ exists x, y = sh x /\ In x (n_out M s))).
  { destruct (Nat.eq_dec a u) as [->|NE]; [|rewrite out_old in I by assumption; auto]. rewrite out_u in I. apply in_app_iff in I.
    destruct I as [I|I]; [auto|]. apply in_map_iff in I. destruct I as (x & <- & I). right. eauto. }
  destruct HI as [HI|(-> & x & -> & HI)].
  - rewrite to_old in P' by (eapply out_old_lt, HI). destruct (IH (n_to N y) ys' b) as (r & A & ->); [lia|eapply to_lt, HI|exact Lb|exact P'|].
    exists (inl y :: r). split; [constructor; assumption|reflexivity].
  - rewrite (to_new x s HI) in P'. destruct (wf_out M WM x s HI) as (_ & _ & _ & LT & _).
    destruct (leave (S (length ys')) (n_to M x) ys' b) as (p & zs & A & -> & C); [lia|exact LT|apply (no_entry M x s WM HI)|exact P'|exact Lb| |].
    + destruct (wf_coreach M WM x s HI) as (t' & xs & Et & Q). assert (t' = t) by congruence. subst t'.
      destruct (Nat.eq_dec (n_to M x) t) as [E|NE2]; [right; exact E|left]. inversion Q as [|? z ? ? Iz]; subst; [congruence|eauto].
    + rewrite app_length in L. destruct (IH v zs b) as (r & B & ->); [lia|exact Lv|exact Lb|exact C|].
      exists (inr (x :: p) :: r). split; [constructor; [constructor; assumption|exact B]|]. reflexivity.
Qed.
Lemma paths_iff a b ys : a < dn -> b < dn -> npath N' a ys b <-> exists r, mp a r b /\ ys = flats r.
Proof. intros La Lb. split; [apply (path_mp (S (length ys))); auto|]. intros (r & P & ->). apply mp_path; assumption. Qed.

(** Data. *)
Definition says_item (i : nat + list nat) : list (option D) := match i with inl x => [n_data N x] | inr p => map (n_data M) p end.
Lemma flats_data a r b : mp a r b -> map (n_data N') (flats r) = concat (map says_item r).
Proof.
  induction 1 as [a|a x r b I P IH|p r b Q P IH]; [reflexivity| |]; cbn [flats map concat flat says_item]; rewrite map_app; fold (flats r); rewrite IH; f_equal.
  - cbn [map]. rewrite data_old' by (eapply out_old_lt, I). reflexivity.
  - rewrite map_map. apply map_ext. intros x. apply data_new.
Qed.

(** A merged network is well formed. *)
Hypothesis PUV : exists xs, xs <> [] /\ npath N u xs v.
Hypothesis RU : exists xs, npath N (n_start N) xs u.
Hypothesis CV : exists t0 xs, n_stop N = Some t0 /\ npath N v xs t0.
Lemma uv : u <> v.
Proof.
  destruct PUV as (xs & NE & P). destruct (wf_rank N WN) as (r & Hr). pose proof (proj2 (npath_rank N r u xs v Hr P) NE). intros E. rewrite E in *. lia.
Qed.
Lemma mp_old a xs b : npath N a xs b -> mp a (map inl xs) b.
Proof. induction 1; cbn [map]; constructor; auto. Qed.
Lemma path_old a xs b : a < dn -> npath N a xs b -> npath N' a xs b.
Proof.
  intros L P. replace xs with (flats (map inl xs)); [apply mp_path; [exact L|apply mp_old, P]|].
  clear. induction xs as [|x xs IH]; [reflexivity|]. cbn [map flats concat flat app]. fold (flats (map inl xs)). rewrite IH. reflexivity.
Qed.
Lemma start_lt : n_start N < dn.
Proof. apply (wf_start N WN). Qed.
Definition maxrank (r : nat -> nat) (n : nat) : nat := fold_right (fun k a => Nat.max (r k) a) 0 (seq 0 n).
Lemma maxrank_le r n k : k < n -> r k <= maxrank r n.
Proof.
  intros L. unfold maxrank. assert (I : In k (seq 0 n)) by (apply in_seq; lia). induction (seq 0 n) as [|y l IH]; [destruct I|].
  cbn [fold_right]. destruct I as [->|I]; [lia|specialize (IH I); lia].
Qed.
Lemma n_out' x a : In x (n_out N' a) ->
  (a < dn /\ x < da /\ In x (n_out N a)) \/ (exists y m, x = sh y /\ In y (n_out M m) /\ m < n_nodes M /\ a = place m /\ (m = s \/ (m <> s /\ m <> t /\ a = dn + m))).
Proof.
  intros I. destruct (Nat.lt_ge_cases a dn) as [La|La].
  - destruct (Nat.eq_dec a u) as [->|NE].
    + rewrite out_u in I. apply in_app_iff in I. destruct I as [I|I]; [left; split; [exact La|split; [eapply out_old_lt, I|exact I]]|].
      apply in_map_iff in I. destruct I as (y & <- & I). right. exists y, s. split; [reflexivity|]. split; [exact I|]. split; [apply (wf_start M WM)|]. split; [symmetry; apply place_s|auto].
    + rewrite out_old in I by assumption. left. split; [exact La|]. split; [eapply out_old_lt, I|exact I].
  - right. replace a with (dn + (a - dn)) in I by lia. destruct (Nat.eq_dec (a - dn) s) as [E|NE]; [rewrite E, out_new_start in I; destruct I|].
    rewrite out_new in I by exact NE. apply in_map_iff in I. destruct I as (y & <- & I). exists y, (a - dn).
    pose proof (m_node _ _ I) as NT. split; [reflexivity|]. split; [exact I|]. split; [apply (wf_out M WM y _ I)|].
    unfold place. rewrite (proj2 (Nat.eqb_neq _ _) NE), (proj2 (Nat.eqb_neq _ _) NT). split; [lia|]. right. split; [exact NE|]. split; [exact NT|]. lia.
Qed.
Lemma place_lt m : m < n_nodes M -> place m < dn + n_nodes M.
Proof. intros L. unfold place, dn in *. destruct (m =? s); [lia|]. destruct (m =? t); lia. Qed.
Lemma in_place_in y m : In y (n_in M m) -> m <> s -> In (sh y) (n_in N' (place m)).
Proof.
  intros I NE. unfold place. rewrite (proj2 (Nat.eqb_neq _ _) NE). destruct (Nat.eqb_spec m t) as [->|NT].
  - rewrite in_v'. apply in_app_iff. right. apply in_map, I.
  - rewrite in_new by exact NT. apply in_map, I.
Qed.
Lemma merge_wf : wf_net N'.
Proof.
  pose proof stop_facts as (Lt & Ot & NTs & Pst).
  constructor.
  - intros x a I. destruct (n_out' x a I) as [(La & Lx & J)|(y & m & -> & J & Lm & -> & _)].
    + destruct (wf_out N WN x a J) as (A & B & C & E & F). rewrite from_old, to_old by exact Lx.
      split; [exact A|]. change (n_arcs N') with (da + n_arcs M). change (n_nodes N') with (dn + n_nodes M). split; [lia|]. split; [lia|]. split; [unfold dn; lia|].
      destruct (Nat.eq_dec (n_to N x) v) as [EV|NE]; [rewrite EV in *; rewrite in_v'; apply in_app_iff; left; exact F|].
      change (In x (n_in N' (n_to N x))). rewrite in_old by (auto; exact E). exact F.
    + destruct (wf_out M WM y m J) as (A & B & C & E & F). rewrite (from_new y m J), (to_new y m J).
      pose proof (m_node y m J) as NTm. split.
      * unfold place. destruct (m =? s); [reflexivity|]. rewrite (proj2 (Nat.eqb_neq _ _) NTm). reflexivity.
      * change (n_arcs N') with (da + n_arcs M). change (n_nodes N') with (dn + n_nodes M). split; [lia|]. split; [apply place_lt, Lm|]. split; [apply place_lt, E|].
        apply in_place_in; [exact F|apply (no_entry M y m WM J)].
  - intros x b I. destruct (Nat.lt_ge_cases b dn) as [Lb|Lb].
    + assert (HI : In x (n_in N b) \/ (b = v /\ exists y, x = sh y /\ In y (n_in M t))).
      { destruct (Nat.eq_dec b v) as [->|NE]; [|rewrite in_old in I by assumption; auto]. rewrite in_v' in I. apply in_app_iff in I.
        destruct I as [I|I]; [auto|]. apply in_map_iff in I. destruct I as (y & <- & I). right. eauto. }
      destruct HI as [HI|(-> & y & -> & HI)].
      * pose proof (in_old_lt _ _ HI) as Lx. destruct (wf_in N WN x b HI) as [A B]. rewrite to_old, from_old by exact Lx. split; [exact A|].
        apply old_arc; [apply (wf_out N WN x _ B)|exact B].
      * destruct (wf_in M WM y t HI) as [A B]. rewrite (to_new y _ B), A, place_t. split; [reflexivity|]. rewrite (from_new y _ B).
        pose proof (in_place y _ B) as C. unfold place in C. destruct (n_from M y =? s); [exact C|]. rewrite (proj2 (Nat.eqb_neq _ _) (m_node _ _ B)) in C. exact C.
    + replace b with (dn + (b - dn)) in I |- * by lia. set (m := b - dn) in *. destruct (Nat.eq_dec m t) as [E|NE]; [rewrite E, in_new_stop in I; destruct I|].
      rewrite in_new in I by exact NE. apply in_map_iff in I. destruct I as (y & <- & I). destruct (wf_in M WM y m I) as [A B].
      rewrite (to_new y _ B), A. assert (m <> s) by (intros E; rewrite E in I; unfold s in I; rewrite (proj2 (wf_start M WM)) in I; destruct I).
      split; [unfold place; rewrite (proj2 (Nat.eqb_neq m s)), (proj2 (Nat.eqb_neq m t)) by assumption; reflexivity|]. rewrite (from_new y _ B).
      pose proof (in_place y _ B) as C. unfold place in C. destruct (n_from M y =? s); [exact C|]. rewrite (proj2 (Nat.eqb_neq _ _) (m_node _ _ B)) in C. exact C.
  - intros a. destruct (Nat.lt_ge_cases a dn) as [La|La].
    + destruct (Nat.eq_dec a u) as [->|NE]; [|rewrite out_old by assumption; apply (wf_nd_out N WN)]. rewrite out_u.
      apply nodup_app_sh; [apply (wf_nd_out N WN)|apply (wf_nd_out M WM)|intros x; apply out_old_lt].
    + replace a with (dn + (a - dn)) by lia. destruct (Nat.eq_dec (a - dn) s) as [E|NE]; [rewrite E, out_new_start; constructor|]. rewrite out_new by exact NE.
      apply FinFun.Injective_map_NoDup; [intros ? ? ?; lia|apply (wf_nd_out M WM)].
  - intros a. destruct (Nat.lt_ge_cases a dn) as [La|La].
    + destruct (Nat.eq_dec a v) as [->|NE]; [|rewrite in_old by assumption; apply (wf_nd_in N WN)]. rewrite in_v'.
      apply nodup_app_sh; [apply (wf_nd_in N WN)|apply (wf_nd_in M WM)|intros x; apply in_old_lt].
    + replace a with (dn + (a - dn)) by lia. destruct (Nat.eq_dec (a - dn) t) as [E|NE]; [rewrite E, in_new_stop; constructor|]. rewrite in_new by exact NE.
      apply FinFun.Injective_map_NoDup; [intros ? ? ?; lia|apply (wf_nd_in M WM)].
  - destruct (wf_rank N WN) as (r & Hr), (wf_rank M WM) as (rm & Hm). set (K := S (S (maxrank rm (n_nodes M)))).
    assert (Ruv : r u < r v).
    { destruct PUV as (xs & NE & P). exact (proj2 (npath_rank N r u xs v Hr P) NE). }
    exists (fun n => if n <? dn then r n * K else r u * K + 1 + rm (n - dn)).
    assert (RP : forall m, m < n_nodes M -> m <> s -> (if place m <? dn then r (place m) * K else r u * K + 1 + rm (place m - dn)) >= r u * K + 1 + rm m /\
       ((if place m <? dn then r (place m) * K else r u * K + 1 + rm (place m - dn)) = r u * K + 1 + rm m \/ m = t)).
    { intros m Lm NE. unfold place. rewrite (proj2 (Nat.eqb_neq _ _) NE). destruct (Nat.eqb_spec m t) as [->|NT].
      - rewrite Lv'. split; [|auto]. pose proof (maxrank_le rm _ t Lt). assert (r v * K >= (r u + 1) * K) by (apply Nat.mul_le_mono_r; lia). unfold K in *. nia.
      - rewrite (proj2 (Nat.ltb_ge (dn + m) dn)) by lia. replace (dn + m - dn) with m by lia. split; [lia|auto]. }
    intros x a I. destruct (n_out' x a I) as [(La & Lx & J)|(y & m & -> & J & Lm & Ea & HM)].
    + rewrite to_old by exact Lx. rewrite (proj2 (Nat.ltb_lt _ _) La), (proj2 (Nat.ltb_lt _ _) (to_lt x a J)).
      apply Nat.mul_lt_mono_pos_r; [unfold K; lia|]. apply Hr, J.
    + rewrite (to_new y m J). pose proof (Hm y m J) as R1. destruct (wf_out M WM y m J) as (_ & _ & _ & LT & _).
      destruct (RP (n_to M y) LT (no_entry M y m WM J)) as [G _]. destruct HM as [->|(NE & NT & Ea2)].
      * rewrite place_s in Ea. subst a. rewrite Lu'. lia.
      * rewrite Ea2. rewrite (proj2 (Nat.ltb_ge (dn + m) dn)) by lia. replace (dn + m - dn) with m by lia. lia.
  - change (n_start N') with (n_start N). split; [change (n_nodes N') with (dn + n_nodes M); pose proof start_lt; lia|].
    rewrite in_old; [apply (wf_start N WN)|apply start_lt|]. intros E. destruct PUV as (xs & NE & P). destruct xs as [|x xs] using rev_ind; [congruence|].
    apply npath_split in P. destruct P as (w & _ & P). apply npath_one in P. destruct P as [I Ev]. rewrite <- E in Ev. symmetry in Ev. exact (no_entry N x w WN I Ev).
  - change (n_stop N') with (n_stop N). change (n_start N') with (n_start N). destruct CV as (t0 & xs & E0 & P0). rewrite E0.
    pose proof (wf_stop N WN) as H. rewrite E0 in H. destruct H as (A & B & C & ys & Q).
    split; [change (n_nodes N') with (dn + n_nodes M); unfold dn; lia|]. split.
    + rewrite out_old; [exact B|exact A|]. intros E. subst t0. destruct PUV as (zs & NE & P). destruct zs as [|z zs]; [congruence|]. apply npath_cons_inv in P. rewrite B in P. destruct P as [[] _].
    + split; [exact C|]. exists ys. apply path_old; [apply start_lt|exact Q].
  - intros x a I. change (n_start N') with (n_start N). destruct (n_out' x a I) as [(La & Lx & J)|(y & m & -> & J & Lm & -> & _)].
    + destruct (wf_reach N WN x a J) as (xs & P). exists xs. apply path_old; [apply start_lt|exact P].
    + destruct (wf_reach M WM y m J) as (xs & P). destruct RU as (us & PU). exists (us ++ map sh xs).
      eapply npath_app; [apply path_old; [apply start_lt|exact PU]|]. rewrite <- place_s at 1. apply sub_path, P.
  - intros x a I. change (n_stop N') with (n_stop N). destruct (n_out' x a I) as [(La & Lx & J)|(y & m & -> & J & Lm & -> & _)].
    + destruct (wf_coreach N WN x a J) as (t0 & xs & E & P). exists t0, xs. split; [exact E|]. rewrite to_old by exact Lx. apply path_old; [eapply to_lt, J|exact P].
    + destruct (wf_coreach M WM y m J) as (t' & xs & E & P). assert (t' = t) by congruence. subst t'. destruct CV as (t0 & vs & E0 & P0).
      exists t0, (map sh xs ++ vs). split; [exact E0|]. rewrite (to_new y m J). eapply npath_app; [apply sub_path, P|]. rewrite place_t. apply path_old; [exact Lv|exact P0].
Qed.
End Merge.
