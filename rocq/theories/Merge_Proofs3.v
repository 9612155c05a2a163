(** Proofs about Merge_Model: the words of joined networks. *)
From Coq Require Import List ZArith Arith Bool Lia.
From Verif Require Import Base Net_Model Net_Spec Net_Proofs1 Net_Proofs2 Net_Proofs3 Merge_Model Merge_Spec Merge_Proofs Merge_Proofs2.
Import ListNotations.
Local Open Scope res_scope.

Section Join.
Context {D : Type}.
Implicit Types N M : net D.

Lemma full_stop N t xs : n_stop N = Some t -> full N xs <-> npath N (n_start N) xs t.
Proof. intros E. unfold full. split; [intros (t' & E' & P); congruence|eauto]. Qed.
Lemma nsays_full N t ws : n_stop N = Some t -> nsays N ws <-> exists xs, full N xs /\ ws = map (n_data N) xs.
Proof.
  intros E. unfold nsays. rewrite E. split.
  - intros (xs & P & <-). exists xs. split; [apply (full_stop N t); assumption|reflexivity].
  - intros (xs & F & ->). apply (full_stop N t) in F; [|exact E]. eauto.
Qed.

Section At.
Variables (N M : net D) (u v t : nat).
Hypothesis WN : wf_net N.
Hypothesis WM : wf_net M.
Hypothesis ST : n_stop M = Some t.
Hypothesis PUV : exists xs, xs <> [] /\ npath N u xs v.
Let N' := merge_at N u v M t.

Lemma at_facts : u < n_nodes N /\ v < n_nodes N /\ (exists xs, npath N (n_start N) xs u) /\ (exists t0 xs, n_stop N = Some t0 /\ npath N v xs t0) /\ (forall xs, ~ npath N v xs u).
Proof.
  destruct PUV as (xs & NE & P). destruct xs as [|x xs]; [congruence|]. pose proof (npath_cons_inv _ _ _ _ _ P) as [I _].
  assert (Lu : u < n_nodes N) by apply (wf_out N WN x u I). split; [exact Lu|]. split; [exact (npath_bound N u _ v WN P Lu)|]. split; [exact (wf_reach N WN x u I)|].
  destruct (wf_rank N WN) as (r & Hr). pose proof (proj2 (npath_rank N r _ _ _ Hr P) NE) as R. split.
  - assert (NE2 : u <> v) by (intros E; rewrite E in R; lia). destruct (last_arc N u _ v P NE2) as (ys & y & c & _ & _ & J & E).
    destruct (wf_coreach N WN y c J) as (t0 & zs & E0 & P0). rewrite E in P0. eauto.
  - intros ys Q. pose proof (proj1 (npath_rank N r _ _ _ Hr Q)). lia.
Qed.
Lemma merge_at_wf : wf_net N'.
Proof. destruct at_facts as (Lu & Lv & A & B & _). apply merge_wf; assumption. Qed.
Lemma mp_once a r b : mp N M u v t a r b ->
  (exists xs, r = map inl xs /\ npath N a xs b) \/
  (exists xs p zs, r = map inl xs ++ inr p :: map inl zs /\ npath N a xs u /\ npath M (n_start M) p t /\ npath N v zs b).
Proof.
  induction 1 as [a|a x r b I P IH|p r b Q P IH]; [left; exists []; split; [reflexivity|constructor]| |].
  - destruct IH as [(xs & -> & P2)|(xs & p & zs & -> & P2 & Q & P3)].
    + left. exists (x :: xs). split; [reflexivity|constructor; assumption].
    + right. exists (x :: xs), p, zs. split; [reflexivity|]. split; [constructor; assumption|auto].
  - destruct IH as [(xs & -> & P2)|(xs & p' & zs & -> & P2 & _)].
    + right. exists [], p, xs. split; [reflexivity|]. split; [constructor|auto].
    + exfalso. destruct at_facts as (_ & _ & _ & _ & NR). exact (NR _ P2).
Qed.
Lemma mp_cat a r b r' c : mp N M u v t a r b -> mp N M u v t b r' c -> mp N M u v t a (r ++ r') c.
Proof. induction 1; intros P; [exact P| |]; cbn [app]; constructor; auto. Qed.
Lemma says_inl xs : concat (map (says_item N M) (map inl xs)) = map (n_data N) xs.
Proof. induction xs as [|x xs IH]; [reflexivity|]. cbn [map concat says_item]. rewrite IH. reflexivity. Qed.
Lemma merge_at_says ws : nsays N' ws <->
  nsays N ws \/ exists xs ps zs, npath N (n_start N) xs u /\ nsays M ps /\ (exists t0, n_stop N = Some t0 /\ npath N v zs t0) /\
    ws = map (n_data N) xs ++ ps ++ map (n_data N) zs.
Proof.
  destruct at_facts as (Lu & Lv & RU & (t0 & vs & E0 & PV) & _). unfold nsays. rewrite ST. change (n_stop N') with (n_stop N). change (n_start N') with (n_start N). rewrite E0.
  assert (Lt : t0 < n_nodes N) by (pose proof (wf_stop N WN) as H; rewrite E0 in H; apply H). pose proof (proj1 (wf_start N WN)) as Ls. split.
  - intros (ys & P & <-). apply (proj1 (paths_iff N M u v t WN WM ST Lu Lv _ _ ys Ls Lt)) in P. destruct P as (r & P & ->).
    unfold N'. rewrite (flats_data N M u v t WN Lu Lv _ _ _ P). destruct (mp_once _ _ _ P) as [(xs & -> & Q)|(xs & p & zs & -> & Q & R & S)].
    + left. exists xs. split; [exact Q|]. symmetry. apply says_inl.
    + right. exists xs, (map (n_data M) p), zs. split; [exact Q|]. split; [eauto|]. split; [eauto|]. rewrite map_app, concat_app. cbn [map concat says_item]. rewrite !says_inl. reflexivity.
  - assert (GO : forall r, mp N M u v t (n_start N) r t0 -> exists xs, npath N' (n_start N) xs t0 /\ map (n_data N') xs = concat (map (says_item N M) r)).
    { intros r P. exists (flats N r). split; [apply mp_path; assumption|]. apply (flats_data N M u v t WN Lu Lv _ _ _ P). }
    intros [(xs & P & <-)|(xs & ps & zs & P & (p & Q & <-) & (t1 & E1 & R) & ->)].
    + destruct (GO (map inl xs)) as (ys & A & B); [apply mp_old, P|]. exists ys. split; [exact A|]. rewrite B. apply says_inl.
    + assert (t1 = t0) by congruence. subst t1. destruct (GO (map inl xs ++ inr p :: map inl zs)) as (ys & A & B).
      * eapply mp_cat; [apply mp_old, P|]. constructor; [exact Q|apply mp_old, R].
      * exists ys. split; [exact A|]. rewrite B, map_app, concat_app. cbn [map concat says_item]. rewrite !says_inl. reflexivity.
Qed.
End At.

(** ** Beside each other *)
Lemma beside_ok N M t tm : wf_net N -> wf_net M -> n_stop N = Some t -> n_stop M = Some tm ->
  exists N', beside N M = Ok N' /\ wf_net N' /\ n_stop N' = Some t /\ (forall ws, nsays N' ws <-> nsays N ws \/ nsays M ws).
Proof.
  intros WN WM E EM. unfold beside. rewrite E. unfold merge. rewrite EM. exists (merge_at N (n_start N) t M tm). split; [reflexivity|].
  assert (PUV : exists xs, xs <> [] /\ npath N (n_start N) xs t).
  { pose proof (wf_stop N WN) as H. rewrite E in H. destruct H as (_ & _ & NE & xs & P). exists xs. split; [|exact P]. intros ->. apply npath_nil in P. congruence. }
  split; [apply merge_at_wf; assumption|]. split; [exact E|]. intros ws. rewrite merge_at_says by assumption. split; (intros [H|H]; [left; exact H|right]).
  - destruct H as (xs & ps & zs & P & Q & (t0 & E0 & R) & ->). assert (t0 = t) by congruence. subst t0. destruct (npath_from_stop N t zs t WN E R) as [-> _].
    assert (xs = []).
    { destruct xs as [|x xs]; [reflexivity|]. destruct (wf_rank N WN) as (r & Hr). assert (x :: xs <> []) by congruence. pose proof (proj2 (npath_rank N r _ _ _ Hr P) H). lia. }
    subst xs. cbn [map app]. rewrite app_nil_r. exact Q.
  - exists [], ws, []. split; [constructor|]. split; [exact H|]. split; [exists t; split; [exact E|constructor]|]. cbn [map app]. rewrite app_nil_r. reflexivity.
Qed.

(** ** A network in place of an arc *)
Section Replace.
Variables (N M : net D) (x tm : nat).
Hypothesis WN : wf_net N.
Hypothesis WM : wf_net M.
Hypothesis EM : n_stop M = Some tm.
Hypothesis AX : arc_of N x.
Let u := n_from N x.
Let v := n_to N x.
Let N1 := merge_at N u v M tm.
Lemma rp_puv : exists xs, xs <> [] /\ npath N u xs v.
Proof. exists [x]. split; [congruence|]. apply npath_one. split; [apply x_out; assumption|reflexivity]. Qed.
Lemma rp_wf1 : wf_net N1.
Proof. apply merge_at_wf; try assumption. apply rp_puv. Qed.
Lemma rp_xlt : x < n_arcs N.
Proof. destruct AX as (a & I). apply (wf_out N WN x a I). Qed.
Lemma rp_lt : u < n_nodes N /\ v < n_nodes N.
Proof. destruct (at_facts N u v WN rp_puv) as (A & B & _). auto. Qed.
Lemma rp_from : n_from N1 x = u.
Proof. unfold N1. rewrite from_old by exact rp_xlt. reflexivity. Qed.
Lemma rp_to : n_to N1 x = v.
Proof. unfold N1. rewrite to_old by exact rp_xlt. reflexivity. Qed.
Lemma rp_out : n_out N1 u = n_out N u ++ map (Nat.add (n_arcs N)) (n_out M (n_start M)).
Proof. destruct rp_lt. apply out_u; assumption. Qed.
Lemma rp_in : n_in N1 v = n_in N v ++ map (Nat.add (n_arcs N)) (n_in M tm).
Proof. destruct rp_lt. apply in_v'; assumption. Qed.
Lemma m_path : exists y zs z, In y (n_out M (n_start M)) /\ In z (n_in M tm) /\ npath M (n_start M) zs tm.
Proof.
  pose proof (wf_stop M WM) as H. rewrite EM in H. destruct H as (_ & _ & NE & xs & P). destruct (last_arc M _ _ _ P) as (ys & z & c & _ & _ & J & E); [congruence|].
  destruct xs as [|y xs]; [apply npath_nil in P; congruence|]. exists y, (y :: xs), z. split; [apply (npath_cons_inv _ _ _ _ _ P)|]. split; [|exact P].
  rewrite <- E. apply (wf_out M WM z c J).
Qed.
Lemma rp_not_alone : ~ alone N1 x.
Proof.
  unfold alone. rewrite rp_from, rp_to, rp_out, rp_in. pose proof (x_out N x WN AX) as I. pose proof (x_in N x WN AX) as J. destruct m_path as (y & _ & z & Iy & Iz & _).
  assert (SP : forall (l r : list nat) w, In x l -> In w r -> l ++ map (Nat.add (n_arcs N)) r <> [x]).
  { intros l r w A B E. assert (L : length (l ++ map (Nat.add (n_arcs N)) r) = 1) by (rewrite E; reflexivity). rewrite app_length, map_length in L.
    destruct l; [destruct A|]. destruct r; [destruct B|]. cbn [length] in L. lia. }
  intros [E|E]; [exact (SP _ _ _ J Iz E)|exact (SP _ _ _ I Iy E)].
Qed.
Lemma rp_arc1 : arc_of N1 x.
Proof. exists u. rewrite rp_out. apply in_app_iff. left. apply x_out; assumption. Qed.
Lemma rp_wf : wf_net (delete_arc N1 x).
Proof. apply del_wf; [apply rp_wf1|apply rp_arc1]. Qed.
Lemma rp_eq : replace_arc N x M = Ok (delete_arc N1 x).
Proof. unfold replace_arc, merge. rewrite EM. reflexivity. Qed.
(** What is left of N. *)
Lemma rp_old y a : In y (n_out N a) -> y <> x ->
  In y (n_out (delete_arc N1 x) a) /\ n_from (delete_arc N1 x) y = n_from N y /\ n_to (delete_arc N1 x) y = n_to N y /\ n_data (delete_arc N1 x) y = n_data N y.
Proof.
  intros I NX. pose proof (wf_out N WN y a I) as (_ & Ly & La & _ & _). destruct rp_lt as [Lu Lv].
  assert (I1 : In y (n_out N1 a)) by (apply old_arc; assumption).
  rewrite (del_kept N1 x rp_wf1 rp_arc1 rp_not_alone). split; [apply (out1 N1 x rp_wf1); auto|]. cbn [n_from n_to n_data].
  unfold N1. rewrite from_old, to_old, data_old' by exact Ly. auto.
Qed.
Lemma rp_stop : n_stop (delete_arc N1 x) = n_stop N.
Proof. rewrite (del_kept N1 x rp_wf1 rp_arc1 rp_not_alone). reflexivity. Qed.
Lemma rp_start : n_start (delete_arc N1 x) = n_start N.
Proof. rewrite (del_kept N1 x rp_wf1 rp_arc1 rp_not_alone). reflexivity. Qed.
(** Paths: a path of the new network is one of the old one where every [x] is a path of M. *)
Lemma mp_no_x a r b : mp N M u v tm a r b -> In x (flats N r) <-> In (inl x) r.
Proof.
  pose proof rp_xlt as L. induction 1 as [a|a y r b I P IH|p r b Q P IH]; [reflexivity| |]; cbn [flats map concat flat]; rewrite in_app_iff; fold (flats N r); rewrite IH.
  - cbn [In]. split; (intros [H|H]; [|right; exact H]); [destruct H as [->|[]]; left; reflexivity|injection H as ->; left; left; reflexivity].
  - cbn [In]. split; (intros [H|H]; [|right; exact H]); [|discriminate]. exfalso. apply in_map_iff in H. destruct H as (z & E & _). lia.
Qed.
Lemma rp_says ws : nsays (delete_arc N1 x) ws <->
  exists xs, full N xs /\ ((~ In x xs /\ ws = map (n_data N) xs) \/
    (exists l r ps, xs = l ++ x :: r /\ nsays M ps /\ ws = map (n_data N) l ++ ps ++ map (n_data N) r)).
Proof.
  destruct rp_lt as [Lu Lv]. rewrite (del_beside_says N1 x rp_wf1 rp_arc1 _ rp_not_alone). destruct (has_stop N x WN AX) as (t0 & E0).
  assert (Lt : t0 < n_nodes N) by (pose proof (wf_stop N WN) as H; rewrite E0 in H; apply H). pose proof (proj1 (wf_start N WN)) as Ls.
  assert (F1 : forall ys, full N1 ys <-> exists r, mp N M u v tm (n_start N) r t0 /\ ys = flats N r).
  { intros ys. rewrite (full_stop N1 t0) by exact E0. apply paths_iff; assumption. }
  pose proof (x_out N x WN AX) as IX. fold u in IX. split.
  - intros (ys & F & NI & ->). apply F1 in F. destruct F as (r & P & ->). rewrite (mp_no_x _ _ _ P) in NI. unfold N1. rewrite (flats_data N M u v tm WN Lu Lv _ _ _ P).
    destruct (mp_once N M u v tm WN rp_puv _ _ _ P) as [(xs & -> & Q)|(xs & p & zs & -> & Q & R & S)].
    + exists xs. split; [apply (full_stop N t0); assumption|]. left. rewrite says_inl. split; [|reflexivity]. intros J. apply NI. apply in_map. exact J.
    + exists (xs ++ x :: zs). split; [apply (full_stop N t0); [exact E0|]; eapply npath_app; [exact Q|]; constructor; [exact IX|exact S]|]. right. exists xs, zs, (map (n_data M) p).
      split; [reflexivity|]. split; [unfold nsays; rewrite EM; eauto|]. rewrite map_app, concat_app. cbn [map concat says_item]. rewrite !says_inl. reflexivity.
  - intros (xs & F & H). apply (full_stop N t0) in F; [|exact E0]. destruct H as [[NI ->]|(l & r & ps & -> & S & ->)].
    + exists (flats N (map inl xs)). assert (P : mp N M u v tm (n_start N) (map inl xs) t0) by (apply mp_old, F). split; [apply F1; eauto|]. split.
      * rewrite (mp_no_x _ _ _ P). intros J. apply in_map_iff in J. destruct J as (y & E & J). apply NI. congruence.
      * unfold N1. rewrite (flats_data N M u v tm WN Lu Lv _ _ _ P). symmetry. apply says_inl.
    + unfold nsays in S. rewrite EM in S. destruct S as (p & S & <-). pose proof (npath_split _ _ _ _ _ F) as (w & A & B). apply npath_cons_inv in B. destruct B as [B C].
      assert (w = u) by (apply (x_only N x WN), B). subst w.
      assert (P : mp N M u v tm (n_start N) (map inl l ++ inr p :: map inl r) t0).
      { eapply mp_cat; [apply mp_old, A|]. constructor; [exact S|apply mp_old, C]. }
      exists (flats N (map inl l ++ inr p :: map inl r)). split; [apply F1; eauto|]. split.
      * rewrite (mp_no_x _ _ _ P). rewrite in_app_iff. cbn [In]. intros [J|[J|J]]; [|discriminate|]; apply in_map_iff in J; destruct J as (y & E & J); injection E as ->.
        -- exact (before_u N x WN AX _ _ A J).
        -- exact (after_v N x WN AX _ _ C J).
      * unfold N1. rewrite (flats_data N M u v tm WN Lu Lv _ _ _ P). rewrite map_app, concat_app. cbn [map concat says_item]. rewrite !says_inl. reflexivity.
Qed.
End Replace.

(** ** A network after or before another *)
Lemma app_last_split (l r xs : list nat) x : ~ In x xs -> l ++ x :: r = xs ++ [x] -> l = xs /\ r = [].
Proof.
  revert xs. induction l as [|a l IH]; intros xs NI E.
  - destruct xs as [|b xs]; cbn [app] in E; [injection E as <-; auto|]. injection E as -> _. exfalso. apply NI. left. reflexivity.
  - destruct xs as [|b xs]; cbn [app] in E; [injection E as _ E; destruct l; discriminate E|]. injection E as -> E. destruct (IH xs) as [-> ->]; [|exact E|auto].
    intros J. apply NI. right. exact J.
Qed.
Lemma app_first_split (l r xs : list nat) x : ~ In x xs -> l ++ x :: r = x :: xs -> l = [] /\ r = xs.
Proof.
  intros NI E. destruct l as [|a l]; cbn [app] in E; [injection E as ->; auto|]. injection E as -> <-. exfalso. apply NI. apply in_app_iff. right. left. reflexivity.
Qed.
Lemma fresh_path N a xs b : wf_net N -> npath N a xs b -> ~ In (n_arcs N) xs.
Proof. intros W P I. pose proof (npath_arcs N a xs b W P _ I). lia. Qed.
(** The null arc at the tail. *)
Lemma tail_facts N : wf_net N -> let N1 := add_tail N None in
  exists t1, n_stop N1 = Some t1 /\ n_in N1 t1 = [n_arcs N] /\ n_to N1 (n_arcs N) = t1 /\ In (n_arcs N) (n_out N1 (n_from N1 (n_arcs N))) /\
    (forall ys, full N1 ys <-> exists xs, ys = xs ++ [n_arcs N] /\ ((exists t, n_stop N = Some t /\ npath N (n_start N) xs t) \/ (n_stop N = None /\ xs = []))) /\
    (forall xs a b, npath N a xs b -> map (n_data N1) xs = map (n_data N) xs).
Proof.
  intros W. unfold add_tail. destruct (n_stop N) as [t|] eqn:E; cbv zeta.
  - exists t. assert (S : n_stop (insert_before N t None) = Some t) by exact E. split; [exact S|]. split; [apply tail_in_t; assumption|]. split; [apply tail_to_new; assumption|].
    split; [rewrite tail_from_new by assumption; rewrite tail_out_v by assumption; left; reflexivity|]. split.
    + intros ys. rewrite (full_stop _ t) by exact S. rewrite tail_paths by assumption. split.
      * intros (xs & -> & P). exists xs. split; [reflexivity|]. left. eauto.
      * intros (xs & -> & [(t' & E' & P)|[E' _]]); [|congruence]. exists xs. split; [reflexivity|]. congruence.
    + intros xs a b P. apply tail_data_old. exact (npath_arcs N a xs b W P).
  - exists (n_nodes N). pose proof (head_stop N None) as S. unfold add_head in S. rewrite E in S. split; [exact S|].
    pose proof (head_in_new N None) as H1. pose proof (head_to_new N None) as H2. pose proof (head_from_new N None W) as H3. pose proof (head_out_s N None) as H4. unfold add_head in *.
    split; [exact H1|]. split; [exact H2|]. split; [rewrite H3, H4; left; reflexivity|]. split.
    + intros ys. rewrite (full_stop _ (n_nodes N)) by exact S. rewrite (head_paths N None W (n_start N) (n_nodes N) ys S) by (right; auto). split.
      * intros (xs & -> & P). assert (xs = []). { pose proof (wf_stop N W) as H. rewrite E in H. destruct xs as [|x xs]; [reflexivity|]. apply npath_cons_inv in P. rewrite H in P. destruct P as [[] _]. }
        subst xs. exists []. split; [reflexivity|]. right. auto.
      * intros (xs & -> & [(t' & E' & P)|[_ ->]]); [congruence|]. exists []. split; [reflexivity|constructor].
    + intros xs a b P. apply data_old. exact (npath_arcs N a xs b W P).
Qed.
Lemma tail_net N M tm : wf_net N -> wf_net M -> n_stop M = Some tm ->
  exists N', add_net_tail N M = Ok N' /\ wf_net N' /\ n_stop N' <> None /\ (forall ws, nsays N' ws <-> exists a b, nsays N a /\ nsays M b /\ ws = a ++ b).
Proof.
  intros W WM EM. destruct (tail_says N None W) as [W1 _]. destruct (tail_facts N W) as (t1 & S & I1 & T1 & O1 & F & DT). set (x := n_arcs N) in *.
  unfold add_net_tail. rewrite S, I1. set (N1 := add_tail N None) in *. assert (AX : arc_of N1 x) by (eexists; exact O1).
  pose proof (rp_eq N1 M x tm EM) as EQ. unfold replace_arc in EQ. rewrite T1 in EQ. rewrite EQ. eexists. split; [reflexivity|].
  pose proof (rp_wf N1 M x tm W1 WM EM AX) as RW. pose proof (rp_stop N1 M x tm W1 WM EM AX) as RS. pose proof (rp_says N1 M x tm W1 WM EM AX) as RP. rewrite T1 in RW, RS, RP.
  split; [exact RW|]. split; [rewrite RS, S; congruence|]. intros ws. rewrite RP.
  assert (SN : forall xs, ((exists t, n_stop N = Some t /\ npath N (n_start N) xs t) \/ (n_stop N = None /\ xs = [])) -> nsays N (map (n_data N) xs) /\ map (n_data N1) xs = map (n_data N) xs /\ ~ In x xs).
  { intros xs [(t & E & P)|[E ->]].
    - split; [unfold nsays; rewrite E; eauto|]. split; [exact (DT _ _ _ P)|exact (fresh_path N _ _ _ W P)].
    - split; [unfold nsays; rewrite E; reflexivity|]. split; [reflexivity|intros []]. }
  split.
  - intros (ys & FY & H). apply F in FY. destruct FY as (xs & -> & P). destruct (SN xs P) as (A & B & C). destruct H as [[NI _]|(l & r & ps & E & MP & ->)].
    + exfalso. apply NI. apply in_app_iff. right. left. reflexivity.
    + symmetry in E. apply app_last_split in E; [|exact C]. destruct E as [-> ->]. exists (map (n_data N) xs), ps. split; [exact A|]. split; [exact MP|]. cbn [map]. rewrite app_nil_r, B. reflexivity.
  - intros (a & b & A & B & ->). assert (HX : exists xs, a = map (n_data N) xs /\ ((exists t, n_stop N = Some t /\ npath N (n_start N) xs t) \/ (n_stop N = None /\ xs = []))).
    { unfold nsays in A. destruct (n_stop N) as [t|]; [|exists []; auto]. destruct A as (xs & P & <-). exists xs. split; [reflexivity|]. left. eauto. }
    destruct HX as (xs & -> & P). destruct (SN xs P) as (_ & D1 & _). exists (xs ++ [x]). split; [apply F; eauto|]. right. exists xs, [], b. split; [reflexivity|].
    split; [exact B|]. cbn [map]. rewrite app_nil_r, D1. reflexivity.
Qed.
Lemma head_facts N : wf_net N -> let N1 := add_head N None in
  (exists t1, n_stop N1 = Some t1) /\ n_out N1 (n_start N1) = [n_arcs N] /\ 
    (forall ys, full N1 ys <-> exists xs, ys = n_arcs N :: xs /\ ((exists t, n_stop N = Some t /\ npath N (n_start N) xs t) \/ (n_stop N = None /\ xs = []))) /\
    (forall xs a b, npath N a xs b -> map (n_data N1) xs = map (n_data N) xs).
Proof.
  intros W. cbv zeta. assert (HS : exists t1, n_stop (add_head N None) = Some t1) by (rewrite head_stop; destruct (n_stop N); eauto).
  split; [exact HS|]. split; [exact (head_out_s N None)|]. destruct HS as (t1 & S). split.
  - intros ys. rewrite (full_stop _ t1) by exact S. destruct (n_stop N) as [t|] eqn:E.
    + rewrite (head_paths N None W t t1 ys S) by (left; exact E). split.
      * intros (xs & -> & P). exists xs. split; [reflexivity|]. left. eauto.
      * intros (xs & -> & [(t' & E' & P)|[E' _]]); [|congruence]. exists xs. split; [reflexivity|]. congruence.
    + rewrite (head_paths N None W (n_start N) t1 ys S) by (right; auto). split.
      * intros (xs & -> & P). assert (xs = []). { pose proof (wf_stop N W) as H. rewrite E in H. destruct xs as [|x xs]; [reflexivity|]. apply npath_cons_inv in P. rewrite H in P. destruct P as [[] _]. }
        subst xs. exists []. split; [reflexivity|]. right. auto.
      * intros (xs & -> & [(t' & E' & P)|[_ ->]]); [congruence|]. exists []. split; [reflexivity|constructor].
  - intros xs a b P. apply data_old. exact (npath_arcs N a xs b W P).
Qed.
Lemma head_net N M tm : wf_net N -> wf_net M -> n_stop M = Some tm ->
  exists N', add_net_head N M = Ok N' /\ wf_net N' /\ n_stop N' <> None /\ (forall ws, nsays N' ws <-> exists a b, nsays M a /\ nsays N b /\ ws = a ++ b).
Proof.
  intros W WM EM. destruct (head_says N None W) as [W1 _]. destruct (head_facts N W) as ((t1 & S) & O1 & F & DT). set (x := n_arcs N) in *.
  unfold add_net_head. rewrite O1. set (N1 := add_head N None) in *. assert (AX : arc_of N1 x) by (exists (n_start N1); rewrite O1; left; reflexivity).
  pose proof (rp_eq N1 M x tm EM) as EQ. unfold replace_arc in EQ. rewrite EQ. eexists. split; [reflexivity|].
  pose proof (rp_wf N1 M x tm W1 WM EM AX) as RW. pose proof (rp_stop N1 M x tm W1 WM EM AX) as RS. pose proof (rp_says N1 M x tm W1 WM EM AX) as RP.
  split; [exact RW|]. split; [rewrite RS, S; congruence|]. intros ws. rewrite RP.
  assert (SN : forall xs, ((exists t, n_stop N = Some t /\ npath N (n_start N) xs t) \/ (n_stop N = None /\ xs = [])) -> nsays N (map (n_data N) xs) /\ map (n_data N1) xs = map (n_data N) xs /\ ~ In x xs).
  { intros xs [(t & E & P)|[E ->]].
    - split; [unfold nsays; rewrite E; eauto|]. split; [exact (DT _ _ _ P)|exact (fresh_path N _ _ _ W P)].
    - split; [unfold nsays; rewrite E; reflexivity|]. split; [reflexivity|intros []]. }
  split.
  - intros (ys & FY & H). apply F in FY. destruct FY as (xs & -> & P). destruct (SN xs P) as (A & B & C). destruct H as [[NI _]|(l & r & ps & E & MP & ->)].
    + exfalso. apply NI. left. reflexivity.
    + symmetry in E. apply app_first_split in E; [|exact C]. destruct E as [-> ->]. exists ps, (map (n_data N) xs). split; [exact MP|]. split; [exact A|]. cbn [map app]. rewrite B. reflexivity.
  - intros (a & b & A & B & ->). assert (HX : exists xs, b = map (n_data N) xs /\ ((exists t, n_stop N = Some t /\ npath N (n_start N) xs t) \/ (n_stop N = None /\ xs = []))).
    { unfold nsays in B. destruct (n_stop N) as [t|]; [|exists []; auto]. destruct B as (xs & P & <-). exists xs. split; [reflexivity|]. left. eauto. }
    destruct HX as (xs & -> & P). destruct (SN xs P) as (_ & D1 & _). exists (x :: xs). split; [apply F; eauto|]. right. exists [], xs, a. split; [reflexivity|].
    split; [exact A|]. cbn [map app]. rewrite D1. reflexivity.
Qed.

(** ** Destroying a network *)
Lemma no_start_no_arc N : wf_net N -> n_out N (n_start N) = [] -> forall a, n_out N a = [].
Proof.
  intros W E a. destruct (n_out N a) as [|x r] eqn:O; [reflexivity|]. exfalso. assert (I : In x (n_out N a)) by (rewrite O; left; reflexivity).
  destruct (wf_reach N W x a I) as (xs & P). destruct xs as [|y xs].
  - apply npath_nil in P. subst a. rewrite E in I. destruct I.
  - apply npath_cons_inv in P. rewrite E in P. destruct P as [[] _].
Qed.
Lemma destroy_ok fuel : forall N L, wf_net N -> NoDup L -> (forall y, arc_of N y <-> In y L) -> length L <= fuel ->
  exists N', destroy fuel N = Ok (length L, N') /\ wf_net N' /\ (forall a, n_out N' a = []) /\ n_stop N' = None.
Proof.
  induction fuel as [|f IH]; intros N L W ND HL LE.
  - assert (L = []) by (destruct L; [reflexivity|cbn [length] in LE; lia]). subst L. assert (O : forall a, n_out N a = []).
    { intros a. destruct (n_out N a) as [|x r] eqn:O; [reflexivity|]. exfalso. apply (HL x). exists a. rewrite O. left. reflexivity. }
    exists N. cbn [destroy]. rewrite O. split; [reflexivity|]. split; [exact W|]. split; [exact O|]. pose proof (wf_stop N W) as H. destruct (n_stop N) as [t|]; [|reflexivity].
    destruct H as (_ & _ & NE & xs & P). destruct xs as [|x xs]; [apply npath_nil in P; congruence|]. apply npath_cons_inv in P. rewrite O in P. destruct P as [[] _].
  - cbn [destroy]. destruct (n_out N (n_start N)) as [|x r] eqn:E.
    + pose proof (no_start_no_arc N W E) as O. assert (L = []).
      { destruct L as [|y L]; [reflexivity|]. exfalso. assert (A : arc_of N y) by (apply HL; left; reflexivity). destruct A as (a & I). rewrite O in I. destruct I. }
      subst L. exists N. split; [reflexivity|]. split; [exact W|]. split; [exact O|]. pose proof (wf_stop N W) as H. destruct (n_stop N) as [t|]; [|reflexivity].
      destruct H as (_ & _ & NE & xs & P). destruct xs as [|x xs]; [apply npath_nil in P; congruence|]. apply npath_cons_inv in P. rewrite O in P. destruct P as [[] _].
    + assert (AX : arc_of N x) by (exists (n_start N); rewrite E; left; reflexivity). pose proof (proj1 (HL x) AX) as IX. apply in_split in IX. destruct IX as (l1 & l2 & ->).
      pose proof (NoDup_remove_1 _ _ _ ND) as ND2. pose proof (NoDup_remove_2 _ _ _ ND) as NI. rewrite app_length in *. cbn [length] in *.
      destruct (IH (delete_arc N x) (l1 ++ l2)) as (N' & -> & A).
      * apply del_wf; assumption.
      * exact ND2.
      * intros y. rewrite del_arcs by assumption. rewrite HL, !in_app_iff. cbn [In]. split.
        -- intros [[H|[H|H]] NX]; [auto|congruence|auto].
        -- intros H. split; [tauto|]. intros ->. apply NI. apply in_app_iff. exact H.
      * rewrite app_length. lia.
      * exists N'. cbn [rbind fst snd]. rewrite app_length. split; [repeat f_equal; lia|exact A].
Qed.
End Join.
