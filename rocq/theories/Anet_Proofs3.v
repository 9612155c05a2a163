(** Replacing arcs along a row of arcs. *)
From Coq Require Import List NArith ZArith Arith Bool Lia.
From Verif Require Import Base Net_Model Net_Spec Net_Proofs1 Net_Proofs2 Net_Proofs3 Merge_Model Merge_Spec Merge_Proofs Merge_Proofs2 Merge_Proofs3.
Import ListNotations.
Local Open Scope res_scope.

Section Row.
Context {D : Type}.
Implicit Types N M : net D.

Lemma replace_full N M x tm : wf_net N -> wf_net M -> n_stop M = Some tm -> arc_of N x ->
  exists N', replace_arc N x M = Ok N' /\ wf_net N' /\ n_start N' = n_start N /\ n_stop N' = n_stop N /\ n_nodes N <= n_nodes N' /\ n_arcs N <= n_arcs N' /\
    (forall a, a < n_nodes N -> a <> n_from N x -> n_out N' a = n_out N a) /\
    (forall y, y < n_arcs N -> n_to N' y = n_to N y /\ n_data N' y = n_data N y) /\
    (forall y, n_data N' (n_arcs N + y) = n_data M y) /\
    (forall ys, full N' ys <-> (full N ys /\ ~ In x ys) \/ exists l r p, full N (l ++ x :: r) /\ full M p /\ ys = l ++ map (Nat.add (n_arcs N)) p ++ r).
Proof.
  intros WN WM EM AX. eexists. split; [apply (rp_eq N M x tm EM)|]. split; [apply rp_wf; assumption|]. split; [apply rp_start; assumption|]. split; [apply rp_stop; assumption|].
  pose proof (rp_lt N x WN AX) as [Lu Lv]. pose proof (rp_wf1 N M x tm WN WM EM AX) as W1. pose proof (rp_arc1 N M x tm WN WM AX) as A1. pose proof (rp_not_alone N M x tm WN WM EM AX) as NA.
  rewrite (del_kept _ x W1 A1 NA). cbn [n_nodes n_arcs n_out n_to n_data].
  split; [cbn; lia|]. split; [cbn; lia|]. split.
  { intros a La NE. rewrite fupd_other by (rewrite rp_from by assumption; exact NE). apply out_old; assumption. }
  split; [intros y Ly; split; [apply to_old; assumption|apply data_old'; assumption]|]. split; [intros y; apply data_new; assumption|].
  intros ys. destruct (has_stop N x WN AX) as (t0 & E0).
  assert (Lt : t0 < n_nodes N) by (pose proof (wf_stop N WN) as H; rewrite E0 in H; apply H). pose proof (proj1 (wf_start N WN)) as Ls.
  rewrite (full_stop _ t0) by exact E0. rewrite (path1 _ x W1). cbn [n_start]. change (n_start (merge_at N (n_from N x) (n_to N x) M tm)) with (n_start N).
  rewrite (paths_iff N M _ _ tm WN WM EM Lu Lv _ _ ys Ls Lt). pose proof (x_out N x WN AX) as IX. split.
  - intros [(r & P & ->) NI]. rewrite (mp_no_x N M x tm WN AX _ _ _ P) in NI.
    destruct (mp_once N M _ _ tm WN (rp_puv N x WN AX) _ _ _ P) as [(xs & -> & Q)|(xs & p & zs & -> & Q & R & S)].
    + left. assert (F : flats N (map inl xs) = xs) by (clear; induction xs as [|y xs IH]; [reflexivity|]; unfold flats in *; cbn [map concat flat app]; rewrite IH; reflexivity).
      rewrite F. split; [apply (full_stop N t0); assumption|]. intros J. apply NI. apply in_map. exact J.
    + right. exists xs, zs, p. split; [apply (full_stop N t0); [exact E0|]; eapply npath_app; [exact Q|]; constructor; [exact IX|exact S]|].
      split; [apply (full_stop M tm); assumption|]. assert (F : forall l : list nat, flats N (map inl l) = l) by (clear; induction l as [|y xs IH]; [reflexivity|]; unfold flats in *; cbn [map concat flat app]; rewrite IH; reflexivity).
      unfold flats in *. rewrite map_app, concat_app. cbn [map concat flat]. rewrite !F. reflexivity.
  - assert (FL : forall l : list nat, flats N (map inl l) = l) by (clear; induction l as [|y xs IH]; [reflexivity|]; unfold flats in *; cbn [map concat flat app]; rewrite IH; reflexivity).
    intros [[F NI]|(l & r & p & F & FM & ->)]; apply (full_stop N t0) in F; try exact E0.
    + split; [|exact NI]. exists (map inl ys). split; [apply mp_old, F|symmetry; apply FL].
    + apply (full_stop M tm) in FM; [|exact EM]. pose proof (npath_split _ _ _ _ _ F) as (w & A & B). apply npath_cons_inv in B. destruct B as [B C].
      assert (w = n_from N x) by (apply (x_only N x WN), B). subst w.
      assert (P : mp N M (n_from N x) (n_to N x) tm (n_start N) (map inl l ++ inr p :: map inl r) t0).
      { eapply mp_cat; [apply mp_old, A|]. constructor; [exact FM|apply mp_old, C]. }
      split.
      * eexists. split; [exact P|]. unfold flats in *. rewrite map_app, concat_app. cbn [map concat flat]. rewrite !FL. reflexivity.
      * rewrite !in_app_iff. intros [J|[J|J]]; [exact (before_u N x WN AX _ _ A J)| |exact (after_v N x WN AX _ _ C J)].
        apply in_map_iff in J. destruct J as (y & E & _). pose proof (rp_xlt N x WN AX). lia.
Qed.

(** ** Rows of arcs *)
Fixpoint row N (c : nat) (l : list nat) (t : nat) : Prop :=
  match l with
  | [] => c = t /\ n_out N c = []
  | x :: r => n_out N c = [x] /\ row N (n_to N x) r t
  end.
Lemma row_path N l t : forall c, row N c l t -> npath N c l t.
Proof. induction l as [|x l IH]; intros c R; cbn [row] in R; [destruct R as [-> _]; constructor|]. destruct R as [O R]. constructor; [rewrite O; left; reflexivity|apply IH, R]. Qed.
Lemma row_later N l t r c : (forall x u, In x (n_out N u) -> r u < r (n_to N x)) -> row N c l t -> forall v, In v (map (n_to N) l) -> r c < r v.
Proof.
  intros H. revert c. induction l as [|x l IH]; intros c R v I; [destruct I|]. cbn [row] in R. destruct R as [O R]. assert (r c < r (n_to N x)) by (apply H; rewrite O; left; reflexivity).
  destruct I as [<-|I]; [assumption|]. specialize (IH _ R v I). lia.
Qed.
Lemma row_not_c N l t c : wf_net N -> row N c l t -> ~ In c (map (n_to N) l).
Proof. intros W R I. destruct (wf_rank N W) as (r & H). pose proof (row_later N l t r c H R c I). lia. Qed.
Lemma row_nodup N l t : forall c, wf_net N -> row N c l t -> NoDup l.
Proof.
  intros c W. revert c. induction l as [|x l IH]; intros c R; [constructor|]. constructor; [|destruct R as [_ R]; exact (IH _ R)].
  intros I. destruct R as [_ R]. apply (row_not_c N l t _ W R). apply in_map. exact I.
Qed.
Lemma row_keep N N' l t : forall c, row N c l t -> (forall a, a = c \/ In a (map (n_to N) l) -> n_out N' a = n_out N a) -> (forall y, In y l -> n_to N' y = n_to N y) -> row N' c l t.
Proof.
  induction l as [|x l IH]; intros c R O T; cbn [row] in *.
  - destruct R as [-> R]. rewrite O by auto. auto.
  - destruct R as [O1 R]. rewrite O by auto. split; [exact O1|]. rewrite T by (left; reflexivity). apply IH; [exact R| |intros y I; apply T; right; exact I].
    intros a I. apply O. right. destruct I as [->|I]; [left; reflexivity|right; exact I].
Qed.
Lemma row_full N l t : wf_net N -> n_stop N = Some t -> row N (n_start N) l t -> forall ys, full N ys <-> ys = l.
Proof.
  intros W E R ys. rewrite (full_stop N t) by exact E. split; [|intros ->; apply row_path, R]. generalize (n_start N) R. clear R. revert ys.
  pose proof (wf_stop N W) as ST. rewrite E in ST. destruct ST as (_ & O & _).
  induction l as [|x l IH]; intros ys c R P; cbn [row] in R.
  - destruct R as [-> _]. inversion P as [|? y ? ? I _]; subst; [reflexivity|]. rewrite O in I. destruct I.
  - destruct R as [O1 R]. inversion P as [|? y zs ? I P']; subst; [rewrite O in O1; discriminate|]. rewrite O1 in I. destruct I as [<-|[]]. f_equal. exact (IH _ _ R P').
Qed.
(** The words before the arcs that are still to be visited. *)
Definition lang N (todo : list nat) (a : list (option D)) : Prop := exists p, full N (p ++ todo) /\ a = map (n_data N) p.
Record inv N (c : nat) (todo : list nat) (t : nat) : Prop := {
  iv_wf : wf_net N; iv_stop : n_stop N = Some t; iv_row : row N c todo t;
  iv_full : forall ys, full N ys -> exists p, ys = p ++ todo /\ (forall y, In y todo -> ~ In y p) }.
Lemma inv_arc N c x todo t : inv N c (x :: todo) t -> arc_of N x /\ n_from N x = c.
Proof. intros I. destruct (iv_row _ _ _ _ I) as [O _]. assert (J : In x (n_out N c)) by (rewrite O; left; reflexivity). split; [exists c; exact J|]. apply (wf_out N (iv_wf _ _ _ _ I) x c J). Qed.
Lemma app_unique (x : nat) p todo : forall l r, ~ In x p -> ~ In x todo -> l ++ x :: r = p ++ x :: todo -> l = p /\ r = todo.
Proof.
  induction p as [|a p IH]; intros l r NP NT E.
  - destruct l as [|b l]; cbn [app] in E; [injection E as ->; auto|]. injection E as -> E. exfalso. apply NT. rewrite <- E. apply in_app_iff. right. left. reflexivity.
  - destruct l as [|b l]; cbn [app] in E; [injection E as -> _; exfalso; apply NP; left; reflexivity|]. injection E as -> E.
    destruct (IH l r) as [-> ->]; [intros I; apply NP; right; exact I|exact NT|exact E|auto].
Qed.
Lemma keep_step N c x todo t : inv N c (x :: todo) t ->
  inv N (n_to N x) todo t /\ (forall a, lang N todo a <-> exists b, lang N (x :: todo) b /\ a = b ++ [n_data N x]).
Proof.
  intros I. pose proof (row_nodup N _ t c (iv_wf _ _ _ _ I) (iv_row _ _ _ _ I)) as ND. inversion ND as [|? ? NX ND']; subst. split.
  - destruct I as [W S R F]. split; [exact W|exact S|apply R|]. intros ys H. destruct (F ys H) as (p & -> & A). exists (p ++ [x]). split; [rewrite <- app_assoc; reflexivity|].
    intros y J K. apply in_app_iff in K. destruct K as [K|[->|[]]]; [apply (A y); [right; exact J|exact K]|contradiction].
  - intros a. split.
    + intros (p & H & ->). destruct (iv_full _ _ _ _ I _ H) as (q & E & A). exists (map (n_data N) q). 
      change (q ++ x :: todo) with (q ++ [x] ++ todo) in E. rewrite app_assoc in E. apply app_inv_tail in E. subst p. split; [exists q; split; [rewrite <- app_assoc in H; exact H|reflexivity]|].
      rewrite map_app. reflexivity.
    + intros (b & (p & H & ->) & ->). exists (p ++ [x]). split; [rewrite <- app_assoc; exact H|]. rewrite map_app. reflexivity.
Qed.
Lemma replace_step N c x todo t M tm : inv N c (x :: todo) t -> wf_net M -> n_stop M = Some tm ->
  exists N', replace_arc N x M = Ok N' /\ inv N' (n_to N x) todo t /\
    (forall y, In y (x :: todo) -> n_to N' y = n_to N y /\ n_data N' y = n_data N y) /\
    (forall a, lang N' todo a <-> exists b d, lang N (x :: todo) b /\ nsays M d /\ a = b ++ d).
Proof.
  intros I WM EM. pose proof (iv_wf _ _ _ _ I) as W. destruct (inv_arc _ _ _ _ _ I) as [AX FX]. pose proof (iv_row _ _ _ _ I) as R.
  pose proof (row_nodup N _ t c W R) as ND. inversion ND as [|? ? NX ND']; subst.
  destruct (replace_full N M x tm W WM EM AX) as (N' & EQ & W' & SA & SO & LN & LA & OU & TD & DN & FU). exists N'. split; [exact EQ|].
  assert (PA : forall y, In y (x :: todo) -> y < n_arcs N) by (apply (npath_arcs N _ _ _ W (row_path _ _ _ _ R))).
  assert (BN : forall l b, row N b l t -> b < n_nodes N -> forall v, In v (map (n_to N) l) -> v < n_nodes N).
  { intros l. induction l as [|y l IH]; intros b Rb Lb v J; [destruct J|]. destruct Rb as [Ob Rb]. assert (J1 : In y (n_out N b)) by (rewrite Ob; left; reflexivity).
    assert (L1 : n_to N y < n_nodes N) by apply (wf_out N W y b J1). destruct J as [<-|J]; [exact L1|]. exact (IH _ Rb L1 v J). }
  assert (LC : n_from N x < n_nodes N) by (destruct R as [O _]; assert (J : In x (n_out N (n_from N x))) by (rewrite O; left; reflexivity); apply (wf_out N W x _ J)).
  assert (F2 : forall ys, full N' ys <-> exists p q, full N (p ++ x :: todo) /\ (forall y, In y (x :: todo) -> ~ In y p) /\ full M q /\ ys = (p ++ map (Nat.add (n_arcs N)) q) ++ todo).
  { intros ys. rewrite FU. split.
    - intros [[F NI]|(l & r & q & F & FM & ->)].
      + exfalso. destruct (iv_full _ _ _ _ I ys F) as (p & -> & _). apply NI. apply in_app_iff. right. left. reflexivity.
      + destruct (iv_full _ _ _ _ I _ F) as (p & E & A). destruct (app_unique x p todo l r) as [-> ->]; [apply A; left; reflexivity|exact NX|exact E|]. exists p, q. rewrite <- app_assoc. auto.
    - intros (p & q & F & A & FM & ->). right. exists p, todo, q. rewrite <- app_assoc. auto. }
  assert (DO : forall p, full N (p ++ x :: todo) -> map (n_data N') p = map (n_data N) p).
  { intros p F. apply (full_stop N t) in F; [|apply (iv_stop _ _ _ _ I)]. apply map_ext_in. intros y J. apply TD. apply (npath_arcs N _ _ _ W F). apply in_app_iff. left. exact J. }
  split; [split|split].
  - exact W'.
  - rewrite SO. apply (iv_stop _ _ _ _ I).
  - destruct R as [O R2]. apply (row_keep N N' todo t (n_to N x) R2).
    + intros a J. assert (JJ : In a (map (n_to N) (x :: todo))) by (destruct J as [->|J]; [left; reflexivity|right; exact J]).
      apply OU; [apply (BN (x :: todo) (n_from N x)); [split; assumption|exact LC|exact JJ]|]. intros ->. apply (row_not_c N (x :: todo) t _ W (conj O R2)). exact JJ.
    + intros y J. apply TD, PA. right. exact J.
  - intros ys F. apply F2 in F. destruct F as (p & q & F & A & FM & ->). exists (p ++ map (Nat.add (n_arcs N)) q). split; [reflexivity|].
    intros y J K. apply in_app_iff in K. destruct K as [K|K]; [apply (A y); [right; exact J|exact K]|]. apply in_map_iff in K. destruct K as (z & E & _).
    pose proof (PA y (or_intror J)). lia.
  - intros y J. apply TD, PA, J.
  - intros a. split.
    + intros (z & F & ->). apply F2 in F. destruct F as (p & q & F & A & FM & E). apply app_inv_tail in E. subst z. exists (map (n_data N) p), (map (n_data M) q).
      split; [exists p; auto|]. split; [apply (nsays_full M tm); [exact EM|eauto]|]. rewrite map_app, DO by exact F. f_equal. rewrite map_map. apply map_ext. exact DN.
    + intros (b & d & (p & F & ->) & SM & ->). apply (nsays_full M tm) in SM; [|exact EM]. destruct SM as (q & FM & ->). exists (p ++ map (Nat.add (n_arcs N)) q). split.
      * apply F2. exists p, q. split; [exact F|]. split; [|auto]. destruct (iv_full _ _ _ _ I _ F) as (p2 & E & A). apply app_inv_tail in E. subst p2. exact A.
      * rewrite map_app, DO by exact F. f_equal. rewrite map_map. symmetry. apply map_ext. exact DN.
Qed.
(** ** Adding at the tail of a row *)
Definition rowof N (ws : list D) : Prop :=
  wf_net N /\ ((ws = [] /\ n_stop N = None) \/
    exists t l, n_stop N = Some t /\ row N (n_start N) l t /\ Forall2 (fun x w => n_data N x = Some w) l ws /\ length l < n_nodes N).
Lemma row_tail N t d : wf_net N -> n_stop N = Some t -> forall l c, row N c l t -> c < n_nodes N ->
  row (insert_before N t d) (if c =? t then n_nodes N else c) (l ++ [n_arcs N]) t.
Proof.
  intros W E. pose proof (wf_stop N W) as ST. rewrite E in ST. destruct ST as (Lt & O & _). induction l as [|x l IH]; intros c R Lc; cbn [row app] in *.
  - destruct R as [-> _]. rewrite Nat.eqb_refl. split; [apply tail_out_v; assumption|]. rewrite tail_to_new by assumption. split; [reflexivity|]. rewrite tail_out_other by (assumption || lia). exact O.
  - destruct R as [Oc R]. assert (NE : c <> t) by (intros ->; rewrite O in Oc; discriminate). rewrite (proj2 (Nat.eqb_neq c t) NE). assert (J : In x (n_out N c)) by (rewrite Oc; left; reflexivity).
    split; [rewrite tail_out_other by (assumption || lia); exact Oc|]. rewrite (tail_to_old N d t W x c J). apply IH; [exact R|]. apply (wf_out N W x c J).
Qed.
Lemma rowof_tail N ws w : rowof N ws -> rowof (add_tail N (Some w)) (ws ++ [w]).
Proof.
  intros [W H]. split; [apply tail_says, W|]. right. destruct H as [[-> E]|(t & l & E & R & F & L)]; unfold add_tail; rewrite E.
  - pose proof (proj1 (wf_start N W)) as Ls. exists (n_nodes N), [n_arcs N]. pose proof (wf_stop N W) as ST. rewrite E in ST.
    change (insert_after N (n_start N) (Some w)) with (add_head N (Some w)). split; [rewrite head_stop, E; reflexivity|]. split.
    + change (n_start (add_head N (Some w))) with (n_start N). split; [apply head_out_s|]. rewrite head_to_new. split; [reflexivity|]. rewrite head_out_v by exact W. apply ST.
    + split; [|cbn; lia]. constructor; [|constructor]. cbn. apply fupd_same.
  - exists t, (l ++ [n_arcs N]). split; [exact E|]. pose proof (wf_stop N W) as ST. rewrite E in ST. destruct ST as (Lt & O & NS & _). split.
    + pose proof (row_tail N t (Some w) W E l (n_start N) R (proj1 (wf_start N W))) as RT. rewrite (proj2 (Nat.eqb_neq (n_start N) t)) in RT by congruence. exact RT.
    + split; [|rewrite app_length; cbn; lia]. apply Forall2_app.
      * assert (PA : forall y, In y l -> y < n_arcs N) by (apply (npath_arcs N _ _ _ W (row_path _ _ _ _ R))). clear - F PA.
        induction F as [|x v l ws Hx F IH]; constructor; [|apply IH; intros y J; apply PA; right; exact J].
        assert (x < n_arcs N) by (apply PA; left; reflexivity). cbn. rewrite fupd_other by lia. exact Hx.
      * constructor; [|constructor]. cbn. apply fupd_same.
Qed.
End Row.
