(** Proofs for Wtn_Model: what additions and the removal of the head do to rows of slots. *)
From Coq Require Import List ZArith Arith Bool Lia Permutation.
From Verif Require Import Base Net_Model Net_Spec Net_Proofs1 Net_Proofs2 Net_Proofs3 NetDp_Model Merge_Model Merge_Spec Merge_Proofs2 Copy_Model Copy_Proofs1 Wtn_Model Wtn_Spec Wtn_Proofs1.
Import ListNotations.
Local Open Scope res_scope.

Section Saus.
Context {D : Type}.
Definition saus (G : net D) (r : list (list nat * nat)) : Prop := wf_net G /\ exists t, n_stop G = Some t /\ row G (n_start G) r t.

Lemma row_intro (G : net D) : forall r u t, nth_error (nodes u r) (length r) = Some t ->
  (forall i p s v, nth_error (nodes u r) i = Some p -> nth_error r i = Some (s, v) -> n_out G p = s /\ s <> [] /\ forall x, In x s -> n_to G x = v) -> row G u r t.
Proof.
  induction r as [|[s v] r IH]; intros u t E H.
  - cbn in E. injection E as ->. constructor.
  - destruct (H 0 u s v eq_refl eq_refl) as (H1 & H2 & H3). constructor; [exact H1|exact H2|exact H3|]. apply IH; [exact E|]. intros i p s' v' Hp Hs. apply (H (S i) p s' v' Hp Hs).
Qed.
Lemma nodes_app u r1 s v r2 : nodes u (r1 ++ (s, v) :: r2) = (u :: map snd r1) ++ v :: map snd r2.
Proof. unfold nodes. rewrite map_app. reflexivity. Qed.

Section Mid.
Variables (G : net D) (r1 : list (list nat * nat)) (s : list nat) (v : nat) (r2 : list (list nat * nat)) (x : nat) (d : option D).
Hypothesis HG : saus G (r1 ++ (s, v) :: r2).
Hypothesis Hx : In x s.
Local Notation r := (r1 ++ (s, v) :: r2).
Local Notation z := (n_arcs G).
Local Notation w := (n_nodes G).
Let W : wf_net G := proj1 HG.

Lemma mid_lev : at_lev r (length r1) x.
Proof. exists s, v. split; [|exact Hx]. rewrite nth_error_app2, Nat.sub_diag by lia. reflexivity. Qed.
Lemma mid_to : n_to G x = v.
Proof.
  pose proof HG as (_ & t & _ & R). pose proof (lev_to G r t R _ _ mid_lev) as E. rewrite nodes_app in E. rewrite nth_error_app2 in E by (cbn; rewrite map_length; lia).
  cbn [length] in E. rewrite map_length, Nat.sub_diag in E. cbn in E. congruence.
Qed.
Lemma mid_out : In x (n_out G (n_from G x)).
Proof. pose proof HG as (_ & t & _ & R). apply (lev_from G W r t R _ _ mid_lev). Qed.
Lemma mid_from : nth_error (nodes (n_start G) r) (length r1) = Some (n_from G x).
Proof. pose proof HG as (_ & t & _ & R). apply (lev_from G W r t R _ _ mid_lev). Qed.
Lemma mid_node : nth_error (nodes (n_start G) r) (S (length r1)) = Some v.
Proof. pose proof HG as (_ & t & _ & R). pose proof (lev_to G r t R _ _ mid_lev) as E. rewrite mid_to in E. exact E. Qed.
Lemma node_lt i p : nth_error (nodes (n_start G) r) i = Some p -> p < w.
Proof.
  pose proof HG as (_ & t & _ & R). intros E. destruct i as [|i].
  - injection E as <-. apply (wf_start G W).
  - cbn in E. rewrite nth_error_map in E. destruct (nth_error r i) as [[s' v']|] eqn:Ei; [|discriminate]. cbn in E. injection E as <-.
    destruct (nth_error (nodes (n_start G) r) i) as [q|] eqn:Eq.
    + destruct (row_nth G r _ _ i q s' v' R Eq Ei) as (O & NE & T). destruct s' as [|y s']; [congruence|]. rewrite <- (T y (or_introl eq_refl)).
      apply (wf_out G W y q). rewrite O. now left.
    + apply nth_error_None in Eq. rewrite nodes_len in Eq. assert (i < length r) by (apply nth_error_Some; congruence). lia.
Qed.
Lemma slot_lt i s' v' y : nth_error r i = Some (s', v') -> In y s' -> y < z.
Proof.
  pose proof HG as (_ & t & _ & R). intros E I. assert (L : at_lev r i y) by (exists s', v'; auto). destruct (lev_from G W r t R _ _ L) as [_ O]. apply (wf_out G W y _ O).
Qed.

Lemma saus_between : let G' := insert_between G (n_from G x) (n_to G x) d in
  saus G' (r1 ++ (s ++ [z], v) :: r2) /\ n_data G' z = d /\ (forall y, y < z -> n_data G' y = n_data G y) /\ n_from G' x = n_from G x.
Proof.
  intros G'. pose proof mid_out as O. destruct (wf_out G W x _ O) as (_ & Lx & _ & Lt & _). assert (NS : forall u, ~ In z (n_out G u)) by (intros u I; apply (wf_out G W) in I; lia).
  split; [|split; [cbn; apply fupd_same|split; [intros y Hy; cbn; apply fupd_other; lia|cbn; apply fupd_other; lia]]].
  pose proof HG as (_ & t & ST & R). split.
  - apply btw_wf; [exact W|apply (wf_reach G W x _ O)|exact (wf_coreach G W x _ O)|exact Lt|]. destruct (wf_rank G W) as (rk & Hr). exists rk. split; [exact Hr|apply Hr, O].
  - exists t. split; [exact ST|]. change (n_start G') with (n_start G). apply row_intro.
    + pose proof (row_end G r _ _ R) as E. rewrite nodes_app in E |- *. rewrite app_length in E |- *. exact E.
    + intros i p s' v' Hp Hs. rewrite nodes_app in Hp. rewrite <- (nodes_app (n_start G) r1 s v r2) in Hp.
      assert (OUT : forall q, n_out G' q = if q =? n_from G x then n_out G (n_from G x) ++ [z] else n_out G q) by (intros q; apply btw_out; [exact W|exact Lt]).
      rewrite OUT. destruct (Nat.eq_dec i (length r1)) as [->|NE].
      * rewrite mid_from in Hp. injection Hp as <-. rewrite Nat.eqb_refl. rewrite nth_error_app2, Nat.sub_diag in Hs by lia. injection Hs as <- <-.
        assert (Er : nth_error r (length r1) = Some (s, v)) by (rewrite nth_error_app2, Nat.sub_diag by lia; reflexivity).
        destruct (row_nth G r _ _ _ _ _ _ R mid_from Er) as (Es & NEs & T). rewrite Es. split; [reflexivity|]. split; [destruct s; discriminate|].
        intros y I. apply in_app_iff in I. destruct I as [I|[<-|[]]].
        -- cbn. rewrite fupd_other by (pose proof (slot_lt _ _ _ y Er I); lia). apply T, I.
        -- cbn. rewrite fupd_same. apply mid_to.
      * destruct (Nat.eqb_spec p (n_from G x)) as [->|NP]; [exfalso; apply NE; apply (nodes_inj G W r t R _ _ _ Hp mid_from)|].
        assert (Er : nth_error r i = Some (s', v')).
        { destruct (Nat.lt_ge_cases i (length r1)) as [L|L]; [rewrite nth_error_app1 in Hs |- * by exact L; exact Hs|].
          rewrite nth_error_app2 in Hs |- * by exact L. destruct (i - length r1) as [|k] eqn:Ek; [lia|]. exact Hs. }
        destruct (row_nth G r _ _ _ _ _ _ R Hp Er) as (Es & NEs & T). split; [exact Es|]. split; [exact NEs|]. intros y I. cbn. rewrite fupd_other by (pose proof (slot_lt _ _ _ y Er I); lia). apply T, I.
Qed.

Lemma saus_before : let G' := insert_before G (n_to G x) d in
  saus G' (r1 ++ (s, w) :: ([z], v) :: r2) /\ n_data G' z = d /\ (forall y, y < z -> n_data G' y = n_data G y) /\
  n_to G' x = w /\ n_out G' w = [z] /\ n_from G' z = w /\ n_to G' z = v.
Proof.
  intros G'. pose proof mid_out as O. destruct (wf_out G W x _ O) as (_ & Lx & _ & Lt & Ix).
  assert (Hi : exists y, In y (n_in G (n_to G x))) by eauto. pose proof (wf_coreach G W x _ O) as Hc.
  pose proof HG as (_ & t & ST & R). pose proof mid_to as MT.
  assert (TZ : n_to G' z = v) by (unfold G'; rewrite bf_to_new; [exact MT|exact W]).
  split; [|split; [cbn; apply fupd_same|split; [intros y Hy; cbn; apply fupd_other; lia|split; [|split; [apply bf_out_v|split; [apply bf_from_new|exact TZ]]]]]].
  2:{ unfold G'. rewrite (bf_to_old G _ d W x _ O), Nat.eqb_refl. reflexivity. }
  split; [apply before_wf; assumption|]. exists t. split; [exact ST|]. change (n_start G') with (n_start G).
  assert (NN : nodes (n_start G) (r1 ++ (s, w) :: ([z], v) :: r2) = (n_start G :: map snd r1) ++ w :: v :: map snd r2) by (rewrite nodes_app; reflexivity).
  set (L := n_start G :: map snd r1) in *. assert (LL : length L = S (length r1)) by (cbn; now rewrite map_length).
  pose proof (nodes_app (n_start G) r1 s v r2) as NO. fold L in NO.
  assert (TO : forall y u, In y (n_out G u) -> n_to G' y = if n_to G y =? v then w else n_to G y) by (intros y u I; unfold G'; rewrite (bf_to_old G _ d W y u I), MT; reflexivity).
  apply row_intro.
  - pose proof (row_end G r _ _ R) as E. rewrite NN. rewrite NO in E. rewrite !app_length in E |- *. cbn [length] in E |- *.
    rewrite nth_error_app2 in E |- * by lia. rewrite LL in E |- *. replace (length r1 + S (S (length r2)) - S (length r1)) with (S (length r2)) by lia.
    replace (length r1 + S (length r2) - S (length r1)) with (length r2) in E by lia. exact E.
  - intros i p s' v' Hp Hs. rewrite NN in Hp. destruct (lt_eq_lt_dec i (length r1)) as [[Li|Ei]|Li].
    + rewrite nth_error_app1 in Hp by lia. rewrite nth_error_app1 in Hs by lia.
      assert (Er : nth_error r i = Some (s', v')) by (rewrite nth_error_app1 by lia; exact Hs).
      assert (Ep : nth_error (nodes (n_start G) r) i = Some p) by (rewrite NO, nth_error_app1 by lia; exact Hp).
      destruct (row_nth G r _ _ _ _ _ _ R Ep Er) as (Es & NEs & T). unfold G'. rewrite bf_out_other by (pose proof (node_lt _ _ Ep); lia). split; [exact Es|]. split; [exact NEs|].
      intros y I. fold G'. rewrite (TO y p) by (rewrite Es; exact I). rewrite (T y I). destruct (Nat.eqb_spec v' v) as [->|_]; [|reflexivity]. exfalso.
      assert (Lv : at_lev r i y) by (exists s', v; auto). pose proof (lev_to G r t R _ _ Lv) as K. rewrite (T y I) in K. pose proof (nodes_inj G W r t R _ _ _ K mid_node). lia.
    + subst i. rewrite nth_error_app1 in Hp by lia. rewrite nth_error_app2, Nat.sub_diag in Hs by lia. injection Hs as <- <-.
      assert (Er : nth_error r (length r1) = Some (s, v)) by (rewrite nth_error_app2, Nat.sub_diag by lia; reflexivity).
      assert (Ep : nth_error (nodes (n_start G) r) (length r1) = Some p) by (rewrite NO, nth_error_app1 by lia; exact Hp).
      destruct (row_nth G r _ _ _ _ _ _ R Ep Er) as (Es & NEs & T). unfold G'. rewrite bf_out_other by (pose proof (node_lt _ _ Ep); lia). split; [exact Es|]. split; [exact NEs|].
      intros y I. fold G'. rewrite (TO y p) by (rewrite Es; exact I). rewrite (T y I), Nat.eqb_refl. reflexivity.
    + rewrite nth_error_app2 in Hp by lia. rewrite nth_error_app2 in Hs by lia. rewrite LL in Hp. destruct (i - length r1) as [|k] eqn:Ek; [lia|]. cbn in Hs.
      replace (i - S (length r1)) with k in Hp by lia. destruct k as [|k].
      * cbn in Hp, Hs. injection Hp as <-. injection Hs as <- <-. unfold G'. rewrite bf_out_v. split; [reflexivity|]. split; [discriminate|]. intros y [<-|[]]. exact TZ.
      * cbn in Hp, Hs. assert (Er : nth_error r (length r1 + S k) = Some (s', v')).
        { rewrite nth_error_app2 by lia. replace (length r1 + S k - length r1) with (S k) by lia. exact Hs. }
        assert (Ep : nth_error (nodes (n_start G) r) (length r1 + S k) = Some p).
        { rewrite NO, nth_error_app2 by lia. rewrite LL. replace (length r1 + S k - S (length r1)) with k by lia. exact Hp. }
        destruct (row_nth G r _ _ _ _ _ _ R Ep Er) as (Es & NEs & T). unfold G'. rewrite bf_out_other by (pose proof (node_lt _ _ Ep); lia). split; [exact Es|]. split; [exact NEs|].
        intros y I. fold G'. rewrite (TO y p) by (rewrite Es; exact I). rewrite (T y I). destruct (Nat.eqb_spec v' v) as [->|_]; [|reflexivity]. exfalso.
        assert (Lv : at_lev r (length r1 + S k) y) by (exists s', v; auto). pose proof (lev_to G r t R _ _ Lv) as K. rewrite (T y I) in K. pose proof (nodes_inj G W r t R _ _ _ K mid_node). lia.
Qed.
End Mid.

Section Ins.
Variable copy : D -> D.
Variable null : D.
Lemma saus_nulls k : forall G r1 l v r2 x, saus G (r1 ++ (l, v) :: r2) -> In x l ->
  exists new, let G' := Nat.iter k (fun A => insert_between A (n_from A x) (n_to A x) (dup copy (Some null))) G in
  saus G' (r1 ++ (l ++ new, v) :: r2) /\ map (n_data G') new = repeat (Some (copy null)) k /\ (forall y, y < n_arcs G -> n_data G' y = n_data G y) /\ n_arcs G <= n_arcs G' /\
  (forall y, In y new -> n_arcs G <= y < n_arcs G').
Proof.
  induction k as [|k IH]; intros G r1 l v r2 x S0 I.
  - exists []. cbv zeta. cbn [Nat.iter nat_rect]. rewrite app_nil_r. split; [exact S0|]. split; [reflexivity|]. split; [auto|]. split; [lia|]. intros y [].
  - destruct (IH G r1 l v r2 x S0 I) as (new & S1 & D1 & O1 & L1 & N1). cbv zeta. cbn [Nat.iter nat_rect]. unfold Nat.iter in S1, D1, O1, L1, N1 |- *.
    set (G1 := nat_rect _ G _ k) in *. destruct (saus_between G1 r1 (l ++ new) v r2 x (dup copy (Some null)) S1 ltac:(apply in_app_iff; now left)) as (S2 & D2 & O2 & _).
    exists (new ++ [n_arcs G1]). rewrite app_assoc. split; [exact S2|]. split; [|split; [|split]].
    + rewrite map_app, (map_ext_in _ (n_data G1)) by (intros y Iy; apply O2, N1, Iy). rewrite D1. cbn [map]. rewrite D2. cbn [dup option_map repeat]. symmetry. apply repeat_cons.
    + intros y Hy. rewrite O2 by lia. apply O1, Hy.
    + cbn [insert_between n_arcs]. lia.
    + intros y Iy. cbn [insert_between n_arcs]. apply in_app_iff in Iy. destruct Iy as [Iy|[<-|[]]]; [apply N1 in Iy; lia|lia].
Qed.
Lemma ins_slot_ok G r1 s v r2 x iter d : saus G (r1 ++ (s, v) :: r2) -> In x s ->
  exists G' w l, ins_slot copy null iter d x G = (G', true) /\ saus G' (r1 ++ (s, w) :: (l, v) :: r2) /\
    map (n_data G') l = dup copy d :: repeat (Some (copy null)) iter /\ (forall y, y < n_arcs G -> n_data G' y = n_data G y) /\ n_arcs G <= n_arcs G'.
Proof.
  intros S0 I. unfold ins_slot. destruct (saus_before G r1 s v r2 x (dup copy d) S0 I) as (S1 & D1 & O1 & T1 & U1 & F1 & V1). set (G1 := insert_before _ _ _) in *.
  rewrite T1, U1. cbn [mem existsb]. rewrite Nat.eqb_refl. cbn [orb].
  replace (r1 ++ (s, n_nodes G) :: ([n_arcs G], v) :: r2) with ((r1 ++ [(s, n_nodes G)]) ++ ([n_arcs G], v) :: r2) in S1 by (rewrite <- app_assoc; reflexivity).
  destruct (saus_nulls iter G1 _ _ v r2 (n_arcs G) S1 (or_introl eq_refl)) as (new & S2 & D2 & O2 & L2 & _).
  eexists _, (n_nodes G), ([n_arcs G] ++ new). split; [reflexivity|]. cbv zeta in S2, D2, O2, L2. rewrite <- app_assoc in S2. split; [exact S2|].
  change (n_arcs G1) with (S (n_arcs G)) in O2, L2. split; [|split].
  - cbn [app map]. rewrite D2, O2 by lia. rewrite D1. reflexivity.
  - intros y Hy. rewrite O2 by lia. apply O1, Hy.
  - lia.
Qed.
End Ins.

(** ** Rows and slots *)
Definition sdata (G : net D) (r : list (list nat * nat)) : list (list (option D)) := map (fun p => map (n_data G) (fst p)) r.
Lemma slots_row (G : net D) u S : slots G u S -> exists r t, row G u r t /\ n_out G t = [] /\ sdata G r = map (map Some) S.
Proof.
  induction 1 as [u E|u s v S NE E T H (r & t & R & O & Ed)].
  - exists [], u. split; [constructor|]. split; [exact E|reflexivity].
  - exists ((n_out G u, v) :: r), t. split; [|split; [exact O|]].
    + constructor; [reflexivity| |exact T|exact R]. intros E0. rewrite E0 in E. destruct s; [congruence|discriminate].
    + unfold sdata in *. cbn [map fst]. rewrite E, Ed. reflexivity.
Qed.
Lemma row_slots (G : net D) r : forall u t S, row G u r t -> n_out G t = [] -> sdata G r = map (map Some) S -> slots G u S.
Proof.
  induction r as [|[s v] r IH]; intros u t S R O E; inversion R; subst.
  - destruct S; [|discriminate]. constructor. exact O.
  - destruct S as [|d S]; [discriminate|]. cbn in E. injection E as E1 E2. apply (slots_more G u d v).
    + intros ->. destruct (n_out G u); [congruence|discriminate].
    + exact E1.
    + assumption.
    + eapply IH; eauto.
Qed.
Lemma head_saus (C : net D) S : is_wtn C S -> exists w r, saus (add_head C None) (([n_arcs C], w) :: r) /\ n_data (add_head C None) (n_arcs C) = None /\
  sdata (add_head C None) r = map (map Some) S.
Proof.
  intros [W H]. destruct (slots_row C _ _ H) as (r & t & R & O & E). exists (n_nodes C), r. pose proof (head_wf C None W) as W'.
  set (A := add_head C None) in *. assert (OV : n_out A (n_nodes C) = n_out C (n_start C)) by (apply head_out_v; exact W).
  assert (OS : n_out A (n_start C) = [n_arcs C]) by apply head_out_s. pose proof (proj1 (wf_start C W)) as Ls.
  assert (OO : forall q, q <> n_start C -> q <> n_nodes C -> n_out A q = n_out C q) by (intros q A1 A2; apply head_out_other; assumption).
  assert (DA : forall x, x < n_arcs C -> n_data A x = n_data C x) by (intros x Lx; cbn; apply fupd_other; lia).
  assert (TA : forall x, x < n_arcs C -> n_to A x = n_to C x) by (intros x Lx; apply head_to_old; exact Lx).
  assert (RR : forall p, row C p r t -> reachable C p -> sdata A r = sdata C r).
  { clear R E. induction r as [|[s v] r IH]; intros p R P; [reflexivity|]. inversion R; subst. unfold sdata in *. cbn [map fst]. f_equal.
    - apply map_ext_in. intros x I. apply DA, (wf_out C W x _ I).
    - match goal with K : row C v r t |- _ => apply (IH v K) end. destruct (n_out C p) as [|x l] eqn:Ex; [congruence|]. match goal with K : forall x, _ -> n_to C x = v |- _ => rewrite <- (K x (or_introl eq_refl)) end.
      apply (reachable_step C p); [exact P|rewrite Ex; now left]. }
  assert (RA : forall r0 p t0, row C p r0 t0 -> p <> n_start C -> p < n_nodes C -> row A p r0 t0).
  { induction r0 as [|[s v] r0 IH]; intros p t0 R0 N1 N2; inversion R0; subst; [constructor|]. constructor.
    - apply OO; [exact N1|lia].
    - assumption.
    - intros x I. rewrite TA by apply (wf_out C W x _ I). auto.
    - destruct (n_out C p) as [|x l] eqn:Ex; [congruence|]. assert (Ix : In x (n_out C p)) by (rewrite Ex; now left). assert (Ev : n_to C x = v) by (match goal with K : forall x, _ -> n_to C x = v |- _ => apply K; now left end).
      apply IH; [assumption|rewrite <- Ev; apply (no_entry C x p W Ix)|rewrite <- Ev; apply (wf_out C W x p Ix)]. }
  split; [|split; [cbn; apply fupd_same|rewrite <- E; apply (RR _ R (reachable_start C))]].
  split; [exact W'|]. assert (TN : n_to A (n_arcs C) = n_nodes C) by apply head_to_new.
  pose proof (head_stop C None) as HS. fold A in HS. pose proof (wf_stop C W) as Hs. destruct r as [|[s v] r].
  - inversion R; subst. destruct (n_stop C) as [q|] eqn:Eq.
    + exfalso. destruct Hs as (_ & _ & Nq & ps & P). destruct ps as [|y ps]; [apply npath_nil in P; congruence|]. apply npath_cons_inv in P. rewrite O in P. destruct P as [[] _].
    + exists (n_nodes C). split; [exact HS|]. change (n_start A) with (n_start C). constructor; [exact OS|discriminate|intros x [<-|[]]; exact TN|constructor].
  - exists t. assert (ST : n_stop C = Some t).
    { inversion R; subst. destruct (n_out C (n_start C)) as [|x l] eqn:Ex; [congruence|]. assert (Ix : In x (n_out C (n_start C))) by (rewrite Ex; now left).
      destruct (wf_coreach C W x _ Ix) as (q & ps & Eq & P). rewrite Eq. f_equal. match goal with K : forall x, _ -> n_to C x = v |- _ => rewrite (K x (or_introl eq_refl)) in P end.
      match goal with K : row C v r t |- _ => revert P K end. clear - O Eq W. revert v q Eq ps. induction r as [|[s' v'] r IH]; intros v q Eq ps P R; inversion R; subst.
      - destruct ps as [|y ps]; [apply npath_nil in P; exact P|]. apply npath_cons_inv in P. rewrite O in P. destruct P as [[] _].
      - destruct ps as [|y ps].
        + apply npath_nil in P. subst q. pose proof (wf_stop C W) as H. rewrite Eq in H. destruct H as (_ & H & _). congruence.
        + apply npath_cons_inv in P. destruct P as [I P]. match goal with K : forall x, _ -> n_to C x = v' |- _ => rewrite (K y I) in P end. eapply IH; eauto. }
    rewrite ST in HS. split; [exact HS|]. change (n_start A) with (n_start C). constructor; [exact OS|discriminate|intros x [<-|[]]; exact TN|].
    inversion R; subst. constructor; [exact OV|assumption| |].
    + intros x I. rewrite TA by apply (wf_out C W x _ I). auto.
    + destruct (n_out C (n_start C)) as [|x l] eqn:Ex; [congruence|]. assert (Ix : In x (n_out C (n_start C))) by (rewrite Ex; now left). assert (Ev : n_to C x = v) by (match goal with K : forall x, _ -> n_to C x = v |- _ => apply K; now left end).
      apply RA; [assumption|rewrite <- Ev; apply (no_entry C x _ W Ix)|rewrite <- Ev; apply (wf_out C W x _ Ix)].
Qed.

(** ** The removal of the null head *)
Lemma unhead (G : net D) h w r Q : saus G (([h], w) :: r) -> n_data G h = None -> sdata G r = map (map Some) Q ->
  exists G', delete_nulls G = Ok G' /\ is_wtn G' Q.
Proof.
  intros HG Dh E. pose proof HG as (W & t & ST & R).
  assert (NB : forall i x, at_lev (([h], w) :: r) (S i) x -> n_data G x <> None).
  { intros i x (s & v & En & I). cbn in En. assert (K : In (map (n_data G) s) (sdata G r)) by (unfold sdata; apply in_map_iff; exists (s, v); split; [reflexivity|eapply nth_error_In, En]).
    rewrite E in K. apply in_map_iff in K. destruct K as (l & El & _). intros E0. assert (K : In (n_data G x) (map (n_data G) s)) by (apply in_map, I). rewrite <- El, E0 in K.
    apply in_map_iff in K. destruct K as (d & K & _). discriminate. }
  assert (Lh : at_lev (([h], w) :: r) 0 h) by (exists [h], w; cbn; auto).
  destruct (lev_from G W _ _ R _ _ Lh) as [Fh Oh]. cbn in Fh. injection Fh as Fh. rewrite <- Fh in Oh.
  assert (OS : n_out G (n_start G) = [h]) by (inversion R; subst; assumption). assert (TH : n_to G h = w) by (inversion R; subst; match goal with K : forall x, _ -> n_to G x = w |- _ => apply K; now left end).
  unfold delete_nulls. destruct (depth_arcs G W) as (xs & Ex & ND & All & _). rewrite Ex. cbn [rbind].
  assert (EF : filter (is_null_arc G) xs = [h]).
  { assert (M : forall y, In y (filter (is_null_arc G) xs) <-> y = h).
    { intros y. rewrite filter_In, All. unfold is_null_arc. split.
      - intros [(u & I) H]. destruct (live_lev G W _ _ R ST y u I) as (i & L). destruct i as [|i]; [|pose proof (NB i y L); destruct (n_data G y); congruence].
        destruct L as (s & v & En & I'). cbn in En. injection En as <- <-. destruct I' as [I'|[]]. congruence.
      - intros ->. rewrite Dh. split; [eauto|reflexivity]. }
    pose proof (NoDup_filter (is_null_arc G) ND) as NF. destruct (filter (is_null_arc G) xs) as [|a [|b l]].
    - exfalso. apply (proj2 (M h) eq_refl).
    - f_equal. apply M. now left.
    - exfalso. inversion NF as [|? ? N1 _]; subst. apply N1. left. transitivity h; [apply M; right; now left|symmetry; apply M; now left]. }
  rewrite EF. cbn [fold_left]. exists (delete_arc G h). split; [reflexivity|]. assert (AH : arc_of G h) by (exists (n_start G); exact Oh).
  split; [apply del_wf; assumption|]. assert (RW : row G w r t) by (inversion R; subst; assumption).
  pose proof (row_nodup G W _ _ _ R) as NDn. unfold nodes in NDn. cbn [map snd] in NDn. assert (ND1 : ~ In (n_start G) (w :: map snd r)) by (inversion NDn; assumption).
  assert (ND2 : ~ In w (map snd r)) by (inversion NDn as [|? ? _ K]; inversion K; assumption).
  assert (Hout : n_out G t = []) by (apply stop_no_out; assumption).
  destruct (del_cases G h W AH) as [(_ & _ & _ & (y & I & NY))|[_ [(_ & _ & Ns)|[(Ed & Ei & Es)|(Ed & _ & Es & _)]]]].
  - exfalso. rewrite <- Fh, OS in I. destruct I as [I|[]]. congruence.
  - exfalso. congruence.
  - rewrite Ed, TH, <- Fh. rewrite TH in Es.
    set (G1 := {| n_from := n_from G; n_to := n_to G; n_data := n_data G; n_in := _; n_out := fupd _ _ _; n_start := _; n_stop := _; n_nodes := _; n_arcs := _ |}).
    assert (NW : n_start G <> w) by (inversion NDn as [|? ? K _]; intros E0; apply K; left; symmetry; exact E0).
    assert (O1 : n_out (pull_out G1 (n_start G) w) (n_start G) = n_out G w).
    { cbn [pull_out n_out]. rewrite fupd_other by exact NW. rewrite fupd_same. unfold G1. cbn [n_out]. rewrite fupd_same, OS. cbn [del_arc filter]. rewrite Nat.eqb_refl. cbn [negb].
      rewrite fupd_other by (intros K; apply NW; congruence). apply add_arcs_nil, (wf_nd_out G W). }
    assert (O2 : forall q, q <> n_start G -> q <> w -> n_out (pull_out G1 (n_start G) w) q = n_out G q).
    { intros q Q1 Q2. cbn [pull_out n_out]. rewrite !fupd_other by assumption. unfold G1. cbn [n_out]. rewrite fupd_other by exact Q1. reflexivity. }
    destruct r as [|[s v] r].
    { exfalso. inversion RW; subst. congruence. }
    change (n_start (pull_out G1 (n_start G) w)) with (n_start G).
    apply (row_slots _ ((s, v) :: r) (n_start G) t); [| |exact E].
    + inversion RW; subst. constructor; [exact O1|assumption|assumption|]. match goal with K : row G v r t |- _ => apply (row_ext G); [exact K|] end.
      intros p s' v' i Hp Hs Ho. split; [|auto]. rewrite O2; [exact Ho| |].
      * intros E0. apply nth_error_In in Hp. apply ND1. right. rewrite <- E0. exact Hp.
      * intros E0. apply nth_error_In in Hp. apply ND2. rewrite <- E0. exact Hp.
    + rewrite O2; [exact Hout| |].
      * intros ->. rewrite OS in Hout. discriminate.
      * intros ->. congruence.
  - rewrite Ed, TH, <- Fh. rewrite TH in Es.
    destruct r as [|[s v] r].
    + destruct Q; [|discriminate]. constructor. cbn [kill_stop n_out n_start]. unfold fupd at 1. destruct (n_start G =? w); [reflexivity|].
      rewrite fupd_same, OS. cbn [del_arc filter]. rewrite Nat.eqb_refl. reflexivity.
    + exfalso. rewrite Es in ST. injection ST as <-. inversion RW; subst. congruence.
Qed.
End Saus.
