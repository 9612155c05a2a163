(** A traversal that replaces the arcs of a network. *)
From Coq Require Import List NArith ZArith Arith Bool Lia Permutation.
From Verif Require Import Base Word_Model Net_Model Net_Spec Net_Proofs1 Net_Proofs2 Net_Proofs3 Merge_Model Merge_Spec Merge_Proofs Merge_Proofs2 Merge_Proofs3
  Anet_Model Anet_Proofs3 Case_Model Sep_Model Cnet_Model.
Import ListNotations.
Local Open Scope res_scope.

Section Data.
Context {D : Type}.
Implicit Types G N M : net D.
Lemma npath_set G x d a xs b : npath (set_data G x d) a xs b <-> npath G a xs b.
Proof. split; induction 1; constructor; auto. Qed.
Lemma full_set G x d xs : full (set_data G x d) xs <-> full G xs.
Proof. unfold full. split; intros (t & E & P); exists t; (split; [exact E|apply (npath_set G x d); exact P]). Qed.
Lemma wf_set G x d : wf_net G -> wf_net (set_data G x d).
Proof.
  intros [H1 H2 H3 H4 H5 H6 H7 H8 H9]. constructor; try assumption.
  - cbn [set_data n_stop n_nodes n_out n_start]. destruct (n_stop G) as [t|]; [|assumption]. destruct H7 as (A & B & C & xs & P). repeat split; auto. exists xs. apply npath_set. exact P.
  - cbn [set_data n_out n_start]. intros y u I. destruct (H8 y u I) as (xs & P). exists xs. apply npath_set. exact P.
  - cbn [set_data n_out n_to n_stop]. intros y u I. destruct (H9 y u I) as (t & xs & E & P). exists t, xs. split; [exact E|]. apply npath_set. exact P.
Qed.

Lemma next_mid (A l : list nat) x : NoDup (A ++ x :: l) -> next_of x (A ++ x :: l) = hd_error l.
Proof.
  induction A as [|a A IH]; intros ND; cbn [app next_of].
  - rewrite Nat.eqb_refl. reflexivity.
  - inversion ND as [|? ? NI ND']; subst. replace (a =? x) with false; [apply IH, ND'|].
    symmetry. apply Nat.eqb_neq. intros ->. apply NI. apply in_app_iff. right. left. reflexivity.
Qed.
Lemma del_mid (A l : list nat) x : NoDup (A ++ x :: l) -> del_arc (A ++ x :: l) x = A ++ l.
Proof.
  intros ND. unfold del_arc. rewrite filter_app. cbn [filter]. rewrite Nat.eqb_refl. cbn [negb]. apply NoDup_remove_2 in ND. rewrite in_app_iff in ND.
  assert (K : forall l, ~ In x l -> filter (fun y => negb (y =? x)) l = l).
  { clear. induction l as [|a l IH]; intros H; [reflexivity|]. cbn [filter]. replace (a =? x) with false by (symmetry; apply Nat.eqb_neq; intros ->; apply H; left; reflexivity).
    cbn [negb]. rewrite IH; [reflexivity|]. intros I. apply H. right. exact I. }
  rewrite !K; tauto.
Qed.
Lemma replace_out N M x tm : wf_net N -> wf_net M -> n_stop M = Some tm -> arc_of N x -> forall N', replace_arc N x M = Ok N' ->
  forall A B, n_out N (n_from N x) = A ++ x :: B -> n_out N' (n_from N x) = A ++ B ++ map (Nat.add (n_arcs N)) (n_out M (n_start M)).
Proof.
  intros WN WM EM AX N' EQ A B OE. rewrite (rp_eq N M x tm EM) in EQ. injection EQ as <-.
  pose proof (rp_wf1 N M x tm WN WM EM AX) as W1. pose proof (rp_arc1 N M x tm WN WM AX) as A1. pose proof (rp_not_alone N M x tm WN WM EM AX) as NA.
  rewrite (del_kept _ x W1 A1 NA). cbn [n_out]. rewrite (rp_from N M x tm WN AX), fupd_same, (rp_out N M x tm WN WM AX), OE.
  rewrite <- app_assoc. cbn [app]. rewrite del_mid; [reflexivity|].
  pose proof (wf_nd_out _ W1 (n_from N x)) as ND. rewrite (rp_out N M x tm WN WM AX), OE, <- app_assoc in ND. exact ND.
Qed.
Lemma replace_from N M x tm : wf_net N -> wf_net M -> n_stop M = Some tm -> arc_of N x -> forall N', replace_arc N x M = Ok N' ->
  n_arcs N' = n_arcs N + n_arcs M.
Proof.
  intros WN WM EM AX N' EQ. rewrite (rp_eq N M x tm EM) in EQ. injection EQ as <-.
  pose proof (rp_wf1 N M x tm WN WM EM AX) as W1. pose proof (rp_arc1 N M x tm WN WM AX) as A1. pose proof (rp_not_alone N M x tm WN WM EM AX) as NA.
  rewrite (del_kept _ x W1 A1 NA). reflexivity.
Qed.
End Data.

Section Dag.
Context {D S : Type}.
Variable op : net D -> nat -> S -> res (net D * S).
Variable Inv : S -> Prop.
Variable G0 : net D.
Hypothesis W0 : wf_net G0.
Variable OL : nat -> list (option D) -> Prop.

(** The operation does nothing on arcs with this data. *)
Definition idle (d : option D) : Prop := forall G x s, Inv s -> n_data G x = d -> exists s', op G x s = Ok (G, s') /\ Inv s'.
(** The operation replaces [x] by something that says [OL x]. *)
Definition op_ok (x : nat) : Prop := forall G s, Inv s -> wf_net G -> arc_of G x -> n_data G x = n_data G0 x ->
  exists s', Inv s' /\
    ((exists w', op G x s = Ok (set_data G x w', s') /\ forall d, OL x d <-> d = [w'])
     \/ (op G x s = Ok (G, s') /\ forall d, OL x d <-> d = [n_data G0 x])
     \/ (exists M G' tm, wf_net M /\ n_stop M = Some tm /\ replace_arc G x M = Ok G' /\ op G x s = Ok (G', s') /\ (forall d, OL x d <-> nsays M d) /\ length (n_out M (n_start M)) <= 1 /\
           (n_out G0 (n_from G0 x) = [x] \/ forall y, In y (n_out M (n_start M)) -> idle (n_data M y)))).
Hypothesis OK : forall x, arc_of G0 x -> op_ok x.

(** The arcs [done] are replaced: [P x] are the paths in place of [x]. *)
Record rel (done : list nat) (P : nat -> list nat -> Prop) (G : net D) : Prop := {
  r_wf : wf_net G;
  r_start : n_start G = n_start G0;
  r_stop : n_stop G = n_stop G0;
  r_nodes : n_nodes G0 <= n_nodes G;
  r_arcs : n_arcs G0 <= n_arcs G;
  r_to : forall x, x < n_arcs G0 -> n_to G x = n_to G0 x;
  r_data : forall x, x < n_arcs G0 -> ~ In x done -> n_data G x = n_data G0 x;
  r_undone : forall x, ~ In x done -> forall p, P x p <-> p = [x];
  r_done : forall x, In x done -> x < n_arcs G0 /\ (forall y p, P x p -> In y p -> y < n_arcs G /\ (y = x \/ n_arcs G0 <= y)) /\
             (forall d, OL x d <-> exists p, P x p /\ d = map (n_data G) p);
  r_full : forall ys, full G ys <-> exists xs yss, full G0 xs /\ Forall2 P xs yss /\ ys = concat yss
}.

Lemma full_lt (G : net D) xs : wf_net G -> full G xs -> forall x, In x xs -> x < n_arcs G.
Proof.
  intros W (t & _ & P) x. induction P as [|u y ys v I P IH]; intros J; [destruct J|]. destruct J as [<-|J]; [apply (wf_out G W _ _ I)|auto].
Qed.
Lemma rel_start : rel [] (fun x p => p = [x]) G0.
Proof.
  constructor; auto; try tauto; [intros x []|]. intros ys. split.
  - intros F. exists ys, (map (fun x => [x]) ys). split; [exact F|]. split.
    + clear. induction ys; constructor; auto.
    + clear. induction ys as [|y ys IH]; [reflexivity|]. cbn. rewrite <- IH. reflexivity.
  - intros (xs & yss & F & FF & ->). replace (concat yss) with xs; [exact F|]. clear - FF. induction FF as [|x p xs yss H FF IH]; [reflexivity|]. subst p. cbn. rewrite <- IH. reflexivity.
Qed.

(** An arc not replaced yet is met on a path exactly when it is met on the original one. *)
Lemma occurs done P G x xs yss : rel done P G -> x < n_arcs G0 -> ~ In x done -> Forall2 P xs yss -> In x (concat yss) <-> In x xs.
Proof.
  intros R L N F. induction F as [|y p xs yss H F IH]; [cbn; tauto|]. cbn [concat]. rewrite in_app_iff, IH. cbn [In].
  assert (K : In x p <-> y = x).
  { destruct (in_dec Nat.eq_dec y done) as [I|I].
    - destruct (r_done _ _ _ R y I) as (Ly & B & _). split.
      + intros J. destruct (B x p H J) as [_ [E|E]]; [auto|lia].
      + intros ->. contradiction.
    - apply (r_undone _ _ _ R y I) in H. subst p. cbn. tauto. }
  tauto.
Qed.

Lemma rel_same done P G x : rel done P G -> x < n_arcs G0 -> ~ In x done -> (forall d, OL x d <-> d = [n_data G0 x]) -> rel (x :: done) P G.
Proof.
  intros [R1 R2 R3 R4 R5 R6 R7 R8 R9 R10] L N O. constructor; auto.
  - intros y Ly NI. apply R7; [exact Ly|]. intros I. apply NI. right. exact I.
  - intros y NI. apply R8. intros I. apply NI. right. exact I.
  - intros y [<-|I]; [|apply R9, I]. split; [exact L|]. split.
    + intros z p H J. apply (R8 x N) in H. subst p. destruct J as [<-|[]]. split; [lia|auto].
    + intros d. rewrite O. split; [intros ->; exists [x]; split; [apply (R8 x N); reflexivity|cbn; rewrite R7 by assumption; reflexivity]|].
      intros (p & H & ->). apply (R8 x N) in H. subst p. cbn. rewrite R7 by assumption. reflexivity.
Qed.
Lemma rel_data done P G x w : rel done P G -> x < n_arcs G0 -> ~ In x done -> (forall d, OL x d <-> d = [w]) -> rel (x :: done) P (set_data G x w).
Proof.
  intros [R1 R2 R3 R4 R5 R6 R7 R8 R9 R10] L N O. constructor; cbn [set_data n_start n_stop n_nodes n_arcs n_to n_data]; auto.
  - apply wf_set, R1.
  - intros y Ly NI. rewrite fupd_other by (intros ->; apply NI; left; reflexivity). apply R7; [exact Ly|]. intros I. apply NI. right. exact I.
  - intros y NI. apply R8. intros I. apply NI. right. exact I.
  - intros y [<-|I].
    + split; [exact L|]. split.
      * intros z p H J. apply (R8 x N) in H. subst p. destruct J as [<-|[]]. split; [lia|auto].
      * intros d. rewrite O. split; [intros ->; exists [x]; split; [apply (R8 x N); reflexivity|cbn; rewrite fupd_same; reflexivity]|].
        intros (p & H & ->). apply (R8 x N) in H. subst p. cbn. rewrite fupd_same. reflexivity.
    + destruct (R9 y I) as (A & B & C). split; [exact A|]. split; [exact B|]. intros d. rewrite C.
      assert (K : forall p, P y p -> map (fupd (n_data G) x w) p = map (n_data G) p).
      { intros p H. apply map_ext_in. intros z J. apply fupd_other. destruct (B z p H J) as [_ [-> |E]]; [intros ->; contradiction|lia]. }
      split; intros (p & H & ->); exists p; (split; [exact H|]); rewrite K by exact H; reflexivity.
  - intros ys. rewrite full_set. apply R10.
Qed.
Lemma rel_replace done P G x M tm G' : rel done P G -> arc_of G x -> x < n_arcs G0 -> ~ In x done -> wf_net M -> n_stop M = Some tm -> replace_arc G x M = Ok G' ->
  (forall d, OL x d <-> nsays M d) ->
  rel (x :: done) (fun y p => if y =? x then exists q, full M q /\ p = map (Nat.add (n_arcs G)) q else P y p) G' /\
  (forall a, a < n_nodes G -> a <> n_from G x -> n_out G' a = n_out G a).
Proof.
  intros R AX L N WM EM EQ O. pose proof R as [R1 R2 R3 R4 R5 R6 R7 R8 R9 R10].
  destruct (replace_full G M x tm R1 WM EM AX) as (N' & EQ' & W' & S' & T' & LN & LA & OA & TD & ND & FU). rewrite EQ in EQ'. injection EQ' as <-.
  pose proof (replace_from G M x tm R1 WM EM AX G' EQ) as NA'.
  split; [|exact OA]. constructor; auto; try congruence; try lia.
  - intros y Ly. rewrite (proj1 (TD y ltac:(lia))). auto.
  - intros y Ly NI. rewrite (proj2 (TD y ltac:(lia))). apply R7; [exact Ly|]. intros I. apply NI. right. exact I.
  - intros y NI p. destruct (Nat.eqb_spec y x) as [-> |NE]; [exfalso; apply NI; left; reflexivity|]. apply R8. intros I. apply NI. right. exact I.
  - intros y [<-|I].
    + split; [exact L|]. rewrite Nat.eqb_refl. split.
      * intros z p (q & F & ->) J. apply in_map_iff in J. destruct J as (z' & <- & J). pose proof (full_lt M q WM F z' J). lia.
      * intros d. rewrite O, (nsays_full M tm d EM). split.
        -- intros (q & F & ->). exists (map (Nat.add (n_arcs G)) q). split; [exists q; auto|]. rewrite map_map. apply map_ext. intros a. symmetry. apply ND.
        -- intros (p & (q & F & ->) & ->). exists q. split; [exact F|]. rewrite map_map. apply map_ext. intros a. apply ND.
    + destruct (R9 y I) as (A & B & C). split; [exact A|]. replace (y =? x) with false by (symmetry; apply Nat.eqb_neq; intros ->; contradiction). split.
      * intros z p H J. destruct (B z p H J). lia.
      * intros d. rewrite C. assert (K : forall p, P y p -> map (n_data G') p = map (n_data G) p).
        { intros p H. apply map_ext_in. intros z J. destruct (B z p H J). apply TD. lia. }
        split; intros (p & H & ->); exists p; (split; [exact H|]); rewrite K by exact H; reflexivity.
  - intros ys. rewrite FU. split.
    + intros [[F NI]|(l & r & q & F & FM & ->)].
      * apply R10 in F. destruct F as (xs & yss & F0 & FF & ->). rewrite (occurs done P G x xs yss R L N FF) in NI. exists xs, yss. split; [exact F0|]. split; [|reflexivity].
        clear - FF NI. induction FF as [|y p xs yss H FF IH]; constructor.
        -- replace (y =? x) with false by (symmetry; apply Nat.eqb_neq; intros ->; apply NI; left; reflexivity). exact H.
        -- apply IH. intros I. apply NI. right. exact I.
      * apply R10 in F. destruct F as (xs & yss & F0 & FF & EC).
        assert (NO : forall a b, full G0 (a ++ x :: b) -> ~ In x a /\ ~ In x b).
        { intros a b (t0 & _ & PP). apply npath_split in PP. destruct PP as (w & PA & PB). apply npath_cons_inv in PB. destruct PB as [IB PB].
          assert (AX0 : arc_of G0 x) by (exists w; exact IB). assert (w = n_from G0 x) by (symmetry; apply (wf_out G0 W0 x w IB)). subst w.
          split; [exact (before_u G0 x W0 AX0 _ _ PA)|exact (after_v G0 x W0 AX0 _ _ PB)]. }
        assert (SP : exists xs1 xs2 ys1 ys2, xs = xs1 ++ x :: xs2 /\ yss = ys1 ++ [x] :: ys2 /\ Forall2 P xs1 ys1 /\ Forall2 P xs2 ys2).
        { assert (I : In x xs) by (apply (occurs done P G x xs yss R L N FF); rewrite <- EC; apply in_app_iff; right; left; reflexivity).
          apply in_split in I. destruct I as (xs1 & xs2 & ->). apply Forall2_app_inv_l in FF. destruct FF as (ys1 & ys2' & F1 & F2 & ->).
          inversion F2 as [|? p ? ys2 H F2']; subst. apply (R8 x N) in H. subst p. exists xs1, xs2, ys1, ys2. auto. }
        destruct SP as (xs1 & xs2 & ys1 & ys2 & -> & -> & F1 & F2). destruct (NO _ _ F0) as [N1 N2].
        rewrite concat_app in EC. cbn [concat app] in EC.
        assert (l = concat ys1 /\ r = concat ys2) as [-> ->].
        { apply (app_unique x); [intros J; apply N1; apply (occurs done P G x xs1 ys1 R L N F1), J|intros J; apply N2; apply (occurs done P G x xs2 ys2 R L N F2), J|exact EC]. }
        exists (xs1 ++ x :: xs2), (ys1 ++ map (Nat.add (n_arcs G)) q :: ys2). split; [exact F0|]. split.
        -- assert (K : forall as_ bs, ~ In x as_ -> Forall2 P as_ bs -> Forall2 (fun y p => if y =? x then exists q, full M q /\ p = map (Nat.add (n_arcs G)) q else P y p) as_ bs).
           { intros as_ bs NI FF9. induction FF9 as [|y p as_ bs H FF9 IH]; constructor.
             - replace (y =? x) with false by (symmetry; apply Nat.eqb_neq; intros ->; apply NI; left; reflexivity). exact H.
             - apply IH. intros I. apply NI. right. exact I. }
           apply Forall2_app; [apply K; assumption|]. constructor; [rewrite Nat.eqb_refl; eauto|apply K; assumption].
        -- rewrite concat_app. cbn [concat]. reflexivity.
    + intros (xs & yss & F0 & FF & ->). destruct (in_dec Nat.eq_dec x xs) as [I|I].
      * right. assert (NO : forall a b, full G0 (a ++ x :: b) -> ~ In x a /\ ~ In x b).
        { intros a b (t0 & _ & PP). apply npath_split in PP. destruct PP as (w & PA & PB). apply npath_cons_inv in PB. destruct PB as [IB PB].
          assert (AX0 : arc_of G0 x) by (exists w; exact IB). assert (w = n_from G0 x) by (symmetry; apply (wf_out G0 W0 x w IB)). subst w.
          split; [exact (before_u G0 x W0 AX0 _ _ PA)|exact (after_v G0 x W0 AX0 _ _ PB)]. }
        apply in_split in I. destruct I as (xs1 & xs2 & ->). destruct (NO _ _ F0) as [N1 N2].
        apply Forall2_app_inv_l in FF. destruct FF as (ys1 & ys2' & F1 & F2 & ->). inversion F2 as [|? p ? ys2 H F2']; subst. rewrite Nat.eqb_refl in H. destruct H as (q & FM & ->).
        assert (K : forall as_ bs, ~ In x as_ -> Forall2 (fun y p => if y =? x then exists q, full M q /\ p = map (Nat.add (n_arcs G)) q else P y p) as_ bs -> Forall2 P as_ bs).
        { intros as_ bs NI FF9. induction FF9 as [|y p as_ bs H FF IH]; constructor.
          - destruct (Nat.eqb_spec y x) as [-> |NE]; [exfalso; apply NI; left; reflexivity|exact H].
          - apply IH. intros I. apply NI. right. exact I. }
        exists (concat ys1), (concat ys2), q. split; [|split; [exact FM|rewrite concat_app; reflexivity]].
        apply R10. exists (xs1 ++ x :: xs2), (ys1 ++ [x] :: ys2). split; [exact F0|]. split; [|rewrite concat_app; reflexivity].
        apply Forall2_app; [apply K; assumption|]. constructor; [apply (R8 x N); reflexivity|apply K; assumption].
      * left. assert (FF' : Forall2 P xs yss).
        { clear - FF I. induction FF as [|y p xs yss H FF IH]; constructor.
          - destruct (Nat.eqb_spec y x) as [-> |NE]; [exfalso; apply I; left; reflexivity|exact H].
          - apply IH. intros J. apply I. right. exact J. }
        split; [apply R10; eauto|]. rewrite (occurs done P G x xs yss R L N FF'). exact I.
Qed.

(** The loop over arcs that are only looked at. *)
Lemma idle_loop u G : forall B A y s f, NoDup (n_out G u) -> n_out G u = A ++ y :: B -> Inv s -> (forall z, In z (y :: B) -> idle (n_data G z)) -> length B < f ->
  exists s', arcs_op op f G u y s = Ok (G, s') /\ Inv s'.
Proof.
  induction B as [|z B IH]; intros A y s f ND OE I ID L; destruct f as [|f]; try lia; cbn [arcs_op];
    destruct (ID y (or_introl eq_refl) G y s I eq_refl) as (s1 & E1 & I1); rewrite E1, OE, next_mid by (rewrite <- OE; exact ND); cbn [rbind hd_error]; eauto.
  apply (IH (A ++ [y])); auto; [rewrite <- app_assoc; exact OE|intros w Hw; apply ID; right; exact Hw|cbn [length] in L; lia].
Qed.

Lemma arc_u (G : net D) u x : wf_net G -> In x (n_out G u) -> n_from G x = u.
Proof. intros W I. apply (wf_out G W x u I). Qed.
Lemma arc_lt (G : net D) u x : wf_net G -> In x (n_out G u) -> x < n_arcs G.
Proof. intros W I. apply (wf_out G W x u I). Qed.

(** The loop over the arcs of a node of the given network. *)
Lemma arcs_loop u : u < n_nodes G0 -> forall todo x A B G s f done P,
  rel done P G -> Inv s -> n_out G u = A ++ x :: todo ++ B -> NoDup (x :: todo) -> incl (x :: todo) (n_out G0 u) -> (forall y, In y (x :: todo) -> ~ In y done) ->
  (forall y, In y B -> idle (n_data G y)) -> (n_out G0 u = [x] -> B = []) -> 2 * length todo + length B + 2 <= f ->
  exists G' s' done' P', arcs_op op f G u x s = Ok (G', s') /\ Inv s' /\ rel done' P' G' /\ (forall y, In y done' <-> In y done \/ In y (x :: todo)) /\
    (forall a, a < n_nodes G0 -> a <> u -> n_out G' a = n_out G a).
Proof.
  intros Lu. induction todo as [|z todo IH]; intros x A B G s f done P R I OE ND IN NI ID SG L; (destruct f as [|f]; [lia|]); cbn [arcs_op].
  - assert (IX : In x (n_out G u)) by (rewrite OE; apply in_app_iff; right; left; reflexivity).
    assert (I0 : In x (n_out G0 u)) by (apply IN; left; reflexivity).
    pose proof (r_wf _ _ _ R) as W. pose proof (arc_lt G0 u x W0 I0) as LX. pose proof (NI x (or_introl eq_refl)) as NX.
    pose proof (wf_nd_out G W u) as NDO.
    assert (AX : arc_of G x) by (exists u; exact IX).
    assert (NB : forall y, In y B -> y <> x /\ y < n_arcs G).
    { intros y J. split; [|apply (arc_lt G u y W); rewrite OE; apply in_app_iff; right; right; exact J]. intros ->.
      rewrite OE in NDO. apply NoDup_remove_2 in NDO. apply NDO. apply in_app_iff. right. exact J. }
    cbn [app] in OE. rewrite OE, next_mid by (rewrite <- OE; exact NDO).
    destruct (OK x ltac:(exists u; exact I0) G s I W AX (r_data _ _ _ R x LX NX)) as (s1 & I1 & [(w' & E & O)|[(E & O)|(M & G1 & tm & WM & EM & RE & E & O & HL & ONE)]]); rewrite E; cbn [rbind].
    + pose proof (rel_data done P G x w' R LX NX O) as R1.
      destruct B as [|b B]; cbn [hd_error]; [exists (set_data G x w'), s1, (x :: done), P; repeat (split; [assumption||reflexivity|]); split; [intros y; cbn; tauto|reflexivity]|].
      destruct (idle_loop u (set_data G x w') B (A ++ [x]) b s1 f) as (s2 & E2 & I2); auto.
      * rewrite <- app_assoc. exact OE.
      * intros y J. cbn [set_data n_data]. rewrite fupd_other by apply NB, J. apply ID, J.
      * cbn [length] in L. lia.
      * exists (set_data G x w'), s2, (x :: done), P. repeat (split; [assumption||reflexivity|]). split; [intros y; cbn; tauto|reflexivity].
    + pose proof (rel_same done P G x R LX NX O) as R1.
      destruct B as [|b B]; cbn [hd_error]; [exists G, s1, (x :: done), P; repeat (split; [assumption||reflexivity|]); split; [intros y; cbn; tauto|reflexivity]|].
      destruct (idle_loop u G B (A ++ [x]) b s1 f) as (s2 & E2 & I2); auto.
      * rewrite <- app_assoc. exact OE.
      * cbn [length] in L. lia.
      * exists G, s2, (x :: done), P. repeat (split; [assumption||reflexivity|]). split; [intros y; cbn; tauto|reflexivity].
    + destruct (rel_replace done P G x M tm G1 R AX LX NX WM EM RE O) as [R1 OA].
      rewrite (arc_u G u x W IX) in OA.
      assert (OA' : forall a, a < n_nodes G0 -> a <> u -> n_out G1 a = n_out G a) by (intros a La Na; apply OA; [pose proof (r_nodes _ _ _ R); lia|exact Na]).
      destruct B as [|b B]; cbn [hd_error].
      { eexists G1, s1, (x :: done), _. split; [reflexivity|]. split; [assumption|]. split; [exact R1|]. split; [intros y; cbn; tauto|exact OA']. }
      destruct ONE as [ONE|ONE]; [rewrite (arc_u G0 u x W0 I0) in ONE; discriminate (SG ONE)|].
      destruct (replace_full G M x tm W WM EM AX) as (G1' & RE' & _ & _ & _ & _ & _ & _ & TD & ND' & _). rewrite RE in RE'. injection RE' as <-.
      destruct (idle_loop u G1 (B ++ map (Nat.add (n_arcs G)) (n_out M (n_start M))) A b s1 f) as (s2 & E2 & I2); auto.
      * apply wf_nd_out, R1.
      * pose proof (replace_out G M x tm W WM EM AX G1 RE A (b :: B)) as RO. rewrite (arc_u G u x W IX) in RO. rewrite (RO OE). reflexivity.
      * intros y J. change (In y ((b :: B) ++ map (Nat.add (n_arcs G)) (n_out M (n_start M)))) in J. apply in_app_iff in J. destruct J as [J|J].
        -- rewrite (proj2 (TD y (proj2 (NB y J)))). apply ID, J.
        -- apply in_map_iff in J. destruct J as (y' & <- & J). rewrite ND'. apply ONE, J.
      * rewrite app_length, map_length. cbn [length] in L. lia.
      * eexists G1, s2, (x :: done), _. split; [exact E2|]. split; [assumption|]. split; [exact R1|]. split; [intros y; cbn; tauto|exact OA'].
  - assert (IX : In x (n_out G u)) by (rewrite OE; apply in_app_iff; right; left; reflexivity).
    assert (I0 : In x (n_out G0 u)) by (apply IN; left; reflexivity).
    pose proof (r_wf _ _ _ R) as W. pose proof (arc_lt G0 u x W0 I0) as LX. pose proof (NI x (or_introl eq_refl)) as NX.
    pose proof (wf_nd_out G W u) as NDO.
    assert (AX : arc_of G x) by (exists u; exact IX).
    inversion ND as [|? ? NXT ND2]; subst.
    assert (IN2 : incl (z :: todo) (n_out G0 u)) by (intros y J; apply IN; right; exact J).
    assert (NI2 : forall y, In y (z :: todo) -> ~ In y (x :: done)).
    { intros y J [<-|K]; [exact (NXT J)|]. exact (NI y (or_intror J) K). }
    assert (SG2 : n_out G0 u = [z] -> B = []).
    { intros K. rewrite K in I0. destruct I0 as [-> |[]]. exfalso. apply NXT. left. reflexivity. }
    assert (DN : forall (d' : list nat), (forall y, In y d' <-> In y (x :: done) \/ In y (z :: todo)) -> forall y, In y d' <-> In y done \/ In y (x :: z :: todo)).
    { intros d' H y. rewrite H. cbn. tauto. }
    assert (NB : forall y, In y B -> y <> x /\ y < n_arcs G).
    { intros y J. split; [|apply (arc_lt G u y W); rewrite OE; apply in_app_iff; right; right; apply in_app_iff; right; exact J]. intros ->.
      rewrite OE in NDO. apply NoDup_remove_2 in NDO. apply NDO. apply in_app_iff. right. apply in_app_iff. right. exact J. }
    rewrite OE, next_mid by (rewrite <- OE; exact NDO). cbn [app hd_error].
    destruct (OK x ltac:(exists u; exact I0) G s I W AX (r_data _ _ _ R x LX NX)) as (s1 & I1 & [(w' & E & O)|[(E & O)|(M & G1 & tm & WM & EM & RE & E & O & HL & ONE)]]); rewrite E; cbn [rbind].
    + pose proof (rel_data done P G x w' R LX NX O) as R1.
      destruct (IH z (A ++ [x]) B (set_data G x w') s1 f (x :: done) P) as (G' & s' & d' & P' & E2 & I2 & R2 & D2 & OA2); auto.
      * rewrite <- app_assoc. exact OE.
      * intros y J. cbn [set_data n_data]. rewrite fupd_other by apply NB, J. apply ID, J.
      * cbn [length] in L. lia.
      * exists G', s', d', P'. split; [exact E2|]. auto.
    + pose proof (rel_same done P G x R LX NX O) as R1.
      destruct (IH z (A ++ [x]) B G s1 f (x :: done) P) as (G' & s' & d' & P' & E2 & I2 & R2 & D2 & OA2); auto.
      * rewrite <- app_assoc. exact OE.
      * cbn [length] in L. lia.
      * exists G', s', d', P'. split; [exact E2|]. auto.
    + destruct (rel_replace done P G x M tm G1 R AX LX NX WM EM RE O) as [R1 OA].
      rewrite (arc_u G u x W IX) in OA.
      assert (OA' : forall a, a < n_nodes G0 -> a <> u -> n_out G1 a = n_out G a) by (intros a La Na; apply OA; [pose proof (r_nodes _ _ _ R); lia|exact Na]).
      destruct ONE as [ONE|ONE].
      { rewrite (arc_u G0 u x W0 I0) in ONE. exfalso. assert (K : In z (n_out G0 u)) by (apply IN2; left; reflexivity). rewrite ONE in K. destruct K as [-> |[]]. apply NXT. left. reflexivity. }
      destruct (replace_full G M x tm W WM EM AX) as (G1' & RE' & _ & _ & _ & _ & _ & _ & TD & ND' & _). rewrite RE in RE'. injection RE' as <-.
      pose proof (replace_out G M x tm W WM EM AX G1 RE A (z :: todo ++ B)) as RO. rewrite (arc_u G u x W IX) in RO. specialize (RO OE).
      edestruct (IH z A (B ++ map (Nat.add (n_arcs G)) (n_out M (n_start M))) G1 s1 f (x :: done)) as (G' & s' & d' & P' & E2 & I2 & R2 & D2 & OA2); [exact R1|exact I1| |exact ND2|exact IN2|exact NI2| | | |].
      * rewrite RO. cbn [app]. rewrite <- ?app_assoc. reflexivity.
      * intros y J. apply in_app_iff in J. destruct J as [J|J].
        -- rewrite (proj2 (TD y (proj2 (NB y J)))). apply ID, J.
        -- apply in_map_iff in J. destruct J as (y' & <- & J). rewrite ND'. apply ONE, J.
      * intros K. rewrite K in I0. destruct I0 as [-> |[]]. exfalso. apply NXT. left. reflexivity.
      * rewrite app_length, map_length. cbn [length] in L. lia.
      * exists G', s', d', P'. split; [exact E2|]. split; [exact I2|]. split; [exact R2|]. split; [apply DN, D2|]. intros a La Na. rewrite OA2, OA'; auto.
Qed.

(** The traversal. *)
Lemma trav_loop : forall fuel G s fringe seen popped done P,
  rel done P G -> Inv s -> NoDup (popped ++ fringe) -> (forall v, In v seen <-> In v (popped ++ fringe)) -> (forall v, In v seen -> reachable G0 v) ->
  (forall u x, In u popped -> In x (n_out G0 u) -> In (n_to G0 x) seen) ->
  (forall x, In x done <-> exists u, In u popped /\ In x (n_out G0 u)) ->
  (forall u, u < n_nodes G0 -> ~ In u popped -> n_out G u = n_out G0 u) ->
  n_nodes G0 + 2 * n_arcs G0 + 1 < fuel + length popped ->
  exists G' s' done' P', trav_op op fuel G fringe seen s = Ok (G', s') /\ Inv s' /\ rel done' P' G' /\ (forall x u, reachable G0 u -> In x (n_out G0 u) -> In u (popped ++ fringe) -> In x done')
    /\ exists popped', incl (popped ++ fringe) popped' /\ (forall u x, In u popped' -> In x (n_out G0 u) -> In x done' /\ In (n_to G0 x) popped').
Proof.
  induction fuel as [|fuel IH]; intros G s fringe seen popped done P R I ND SE RE CL DN OU L.
  - exfalso. assert (length (popped ++ fringe) <= n_nodes G0).
    { apply bounded_length; [exact ND|]. intros x Hx. apply (reachable_bound G0 W0). apply RE, SE, Hx. }
    rewrite app_length in H. lia.
  - destruct fringe as [|u r]; cbn [trav_op].
    + rewrite app_nil_r in *. exists G, s, done, P. split; [reflexivity|]. split; [exact I|]. split; [exact R|]. split.
      * intros x v _ Hx Hv. apply DN. eauto.
      * exists popped. split; [apply incl_refl|]. intros v x Hv Hx. split; [apply DN; eauto|]. apply SE. eapply CL; eauto.
    + assert (Lu : u < n_nodes G0) by (apply (reachable_bound G0 W0), RE, SE, in_or_app; right; left; reflexivity).
      assert (Nu : ~ In u popped). { intros J. apply NoDup_remove_2 in ND. apply ND. apply in_or_app. left. exact J. }
      assert (Lp : length popped < n_nodes G0).
      { assert (K : length (popped ++ u :: r) <= n_nodes G0) by (apply bounded_length; [exact ND|]; intros x Hx; apply (reachable_bound G0 W0); apply RE, SE, Hx). rewrite app_length in K. cbn [length] in K. lia. }
      rewrite (OU u Lu Nu). destruct (push_all Depth G (n_out G0 u) r (fun _ => 0%Z) seen) as [[fr c] se] eqn:E.
      destruct (push_plain G Depth (n_out G0 u) r _ seen fr c se ltac:(discriminate) E) as (new & H1 & H2 & H3 & H4 & H5 & H6).
      assert (TO : forall x, In x (n_out G0 u) -> n_to G x = n_to G0 x) by (intros x Hx; apply (r_to _ _ _ R), (arc_lt G0 u x W0 Hx)).
      assert (Hu : reachable G0 u) by (apply RE, SE, in_or_app; right; now left).
      assert (STEP : exists G1 s1 done1 P1, match n_out G0 u with [] => Ok (G, s) | x :: _ => arcs_op op fuel G u x s end = Ok (G1, s1) /\ Inv s1 /\ rel done1 P1 G1 /\
                (forall y, In y done1 <-> In y done \/ In y (n_out G0 u)) /\ (forall a, a < n_nodes G0 -> a <> u -> n_out G1 a = n_out G a)).
      { destruct (n_out G0 u) as [|x todo] eqn:EO.
        - exists G, s, done, P. repeat (split; [assumption||reflexivity|]). split; [intros y; cbn; tauto|reflexivity].
        - destruct (arcs_loop u Lu todo x [] [] G s fuel done P) as (G1 & s1 & d1 & P1 & A1 & A2 & A3 & A4 & A5); auto.
          + rewrite (OU u Lu Nu), EO, app_nil_r. reflexivity.
          + rewrite <- EO. apply (wf_nd_out G0 W0).
          + rewrite EO. apply incl_refl.
          + intros y Hy J. apply DN in J. destruct J as (v & Hv & J). rewrite <- EO in Hy. assert (v = u) by (rewrite <- (arc_u G0 v y W0 J); apply (arc_u G0 u y W0 Hy)). subst v. contradiction.
          + intros y [].
          + assert (K : length (x :: todo) <= n_arcs G0). { rewrite <- EO. apply bounded_length; [apply (wf_nd_out G0 W0)|]. intros y Hy. apply (arc_lt G0 u y W0 Hy). }
            cbn [length] in K |- *. lia.
          + exists G1, s1, d1, P1. auto. }
      destruct STEP as (G1 & s1 & done1 & P1 & E1 & I1 & R1 & D1 & O1). rewrite E1. cbn [rbind].
      destruct (IH G1 s1 fr se (popped ++ [u]) done1 P1 R1 I1) as (G' & s' & d' & P' & B1 & B2 & B3 & B4 & B5).
      * apply (Permutation_NoDup (l := (popped ++ u :: r) ++ new)).
        -- rewrite H4. rewrite <- !app_assoc. apply Permutation_app_head. cbn. apply Permutation_refl.
        -- apply NoDup_app_intro; [exact ND|exact H1|]. intros v Hv Hn. apply (H2 v Hn). apply SE. exact Hv.
      * intros v. rewrite H3, SE, !in_app_iff. rewrite (Permutation_in_iff v _ _ H4), in_app_iff. cbn. tauto.
      * intros v Hv. apply H3 in Hv. destruct Hv as [Hv|Hv]; [auto|]. destruct (H5 v Hv) as (x & Hx & ->). rewrite TO by exact Hx.
        apply (reachable_step G0 u); assumption.
      * intros w x Hw Hx. apply in_app_or in Hw. destruct Hw as [Hw|[<-|[]]]; [apply H3; left; eapply CL; eauto|]. rewrite <- TO by exact Hx. auto.
      * intros x. rewrite D1, DN. split.
        -- intros [(v & Hv & J)|J]; [exists v; split; [apply in_or_app; left; exact Hv|exact J]|exists u; split; [apply in_or_app; right; left; reflexivity|exact J]].
        -- intros (v & Hv & J). apply in_app_or in Hv. destruct Hv as [Hv|[<-|[]]]; [left; eauto|right; exact J].
      * intros v Lv Nv. rewrite O1; [apply OU; [exact Lv|intros J; apply Nv, in_or_app; left; exact J]|exact Lv|]. intros ->. apply Nv, in_or_app. right. left. reflexivity.
      * rewrite app_length. cbn [length]. lia.
      * exists G', s', d', P'. split; [exact B1|]. split; [exact B2|]. split; [exact B3|].
        assert (IC : incl (popped ++ u :: r) ((popped ++ [u]) ++ fr)).
        { intros v Hv. rewrite <- app_assoc. apply in_app_iff in Hv. apply in_app_iff. destruct Hv as [Hv|[<-|Hv]]; [left; exact Hv|right; left; reflexivity|].
          right. right. apply (Permutation_in_iff v _ _ H4). apply in_or_app. left. exact Hv. }
        split; [intros x v Hr Hx Hv; eapply B4; eauto|]. destruct B5 as (p' & C1 & C2). exists p'. split; [|exact C2]. intros v Hv. apply C1, IC, Hv.
Qed.

(** All arcs are replaced. *)
Lemma dag_rel : forall fuel s, Inv s -> n_nodes G0 + 2 * n_arcs G0 + 1 < fuel ->
  exists G' s' d' P', traverse_op op fuel G0 s = Ok (G', s') /\ Inv s' /\ rel d' P' G' /\ forall x, arc_of G0 x -> In x d'.
Proof.
  intros fuel s I L. destruct (trav_loop fuel G0 s [n_start G0] [n_start G0] [] [] (fun x p => p = [x])) as (G' & s' & d' & P' & E & I' & R & _ & p' & PI & PC).
  - apply rel_start.
  - exact I.
  - cbn. repeat constructor; auto.
  - intros v. cbn. tauto.
  - intros v [<-|[]]. apply reachable_start.
  - intros u x [].
  - intros x. cbn. split; [intros []|intros (u & [] & _)].
  - reflexivity.
  - cbn [length]. lia.
  - exists G', s', d', P'. split; [exact E|]. split; [exact I'|]. split; [exact R|].
    assert (AL : forall u, reachable G0 u -> In u p').
    { apply (reachable_ind G0); [apply PI; left; reflexivity|]. intros u x Hu Hx. apply (PC u x Hu Hx). }
    intros x (u & J). apply (PC u x); [|exact J]. apply AL. exact (wf_reach _ W0 _ _ J).
Qed.
Lemma rel_says d' P' G' : rel d' P' G' -> (forall x, arc_of G0 x -> In x d') -> n_stop G0 <> None ->
  forall a, nsays G' a <-> exists xs ds, full G0 xs /\ Forall2 OL xs ds /\ a = concat ds.
Proof.
  intros R AL NS. assert (FD : forall xs, full G0 xs -> Forall (fun x => In x d') xs).
  { intros xs (t & _ & P0). apply Forall_forall. intros x Hx. apply in_split in Hx. destruct Hx as (l & r & ->). apply npath_split in P0. destruct P0 as (w & PA & PB).
    apply npath_cons_inv in PB. destruct PB as [IB PB]. apply AL. exists w. exact IB. }
  destruct (n_stop G0) as [t|] eqn:ES; [|contradiction].
  assert (ES' : n_stop G' = Some t) by (rewrite (r_stop _ _ _ R); exact ES).
  intros a. rewrite (nsays_full G' t a ES'). split.
  - intros (ys & F & ->). apply (r_full _ _ _ R) in F. destruct F as (xs & yss & F0 & FF & ->). exists xs, (map (map (n_data G')) yss). split; [exact F0|]. split.
    + pose proof (FD xs F0) as FX. clear F0. induction FF as [|x p xs yss H FF IH]; [constructor|]. cbn [map]. constructor; [|apply IH, (Forall_inv_tail FX)].
      apply (r_done _ _ _ R x (Forall_inv FX)). eauto.
    + rewrite concat_map. reflexivity.
  - intros (xs & ds & F0 & FF & ->). pose proof (FD xs F0) as FX.
    assert (K : exists yss, Forall2 P' xs yss /\ ds = map (map (n_data G')) yss).
    { clear F0. induction FF as [|x d xs ds H FF IH]; [exists []; split; [constructor|reflexivity]|]. destruct (IH (Forall_inv_tail FX)) as (yss & F2 & ->).
      apply (r_done _ _ _ R x (Forall_inv FX)) in H. destruct H as (p & H & ->). exists (p :: yss). split; [constructor; assumption|reflexivity]. }
    destruct K as (yss & F2 & ->). exists (concat yss). split; [apply (r_full _ _ _ R); eauto|]. rewrite concat_map. reflexivity.
Qed.
Lemma dag_op : forall fuel s, Inv s -> n_nodes G0 + 2 * n_arcs G0 + 1 < fuel -> n_stop G0 <> None ->
  exists G' s', traverse_op op fuel G0 s = Ok (G', s') /\ Inv s' /\ wf_net G' /\ n_start G' = n_start G0 /\ n_stop G' = n_stop G0 /\
    forall a, nsays G' a <-> exists xs ds, full G0 xs /\ Forall2 OL xs ds /\ a = concat ds.
Proof.
  intros fuel s I L NS. destruct (dag_rel fuel s I L) as (G' & s' & d' & P' & E & I' & R & AL). exists G', s'. split; [exact E|]. split; [exact I'|].
  split; [apply R|]. split; [apply R|]. split; [apply R|]. exact (rel_says d' P' G' R AL NS).
Qed.
End Dag.

(** ** Operations on the data only *)
Definition same_shape {D} (G G' : net D) : Prop :=
  n_from G' = n_from G /\ n_to G' = n_to G /\ n_in G' = n_in G /\ n_out G' = n_out G /\ n_start G' = n_start G /\ n_stop G' = n_stop G /\ n_nodes G' = n_nodes G /\ n_arcs G' = n_arcs G.
Lemma shape_refl {D} (G : net D) : same_shape G G.
Proof. repeat split. Qed.
Lemma shape_trans {D} (A B C : net D) : same_shape A B -> same_shape B C -> same_shape A C.
Proof. unfold same_shape. intuition congruence. Qed.
Section Word.
Context {S : Type}.
Variable f : word -> S -> res (word * S).
Lemma word_shape G x s G' s' : word_op f G x s = Ok (G', s') -> same_shape G G'.
Proof. unfold word_op. destruct (n_data G x) as [w|]; [|discriminate]. destruct (f w s) as [[w' s1]| | |]; try discriminate. cbn [rbind]. intros E. injection E as <- <-. repeat split. Qed.
Lemma arcs_shape u : forall fuel G x s G' s', arcs_op (word_op f) fuel G u x s = Ok (G', s') -> same_shape G G'.
Proof.
  induction fuel as [|fuel IH]; intros G x s G' s' E; cbn [arcs_op] in E; [discriminate|]. destruct (word_op f G x s) as [[G1 s1]| | |] eqn:E1; try discriminate. cbn [rbind] in E.
  pose proof (word_shape _ _ _ _ _ E1) as SH. destruct (next_of x (n_out G u)) as [y|].
  - exact (shape_trans _ _ _ SH (IH _ _ _ _ _ E)).
  - injection E as <- <-. exact SH.
Qed.
Lemma trav_shape : forall fuel G fringe seen s G' s', trav_op (word_op f) fuel G fringe seen s = Ok (G', s') -> same_shape G G'.
Proof.
  induction fuel as [|fuel IH]; intros G fringe seen s G' s' E; destruct fringe as [|u r]; cbn [trav_op] in E; try discriminate; try (injection E as <- <-; apply shape_refl).
  destruct (push_all Depth G (n_out G u) r (fun _ => 0%Z) seen) as [[fr c] se]. destruct (n_out G u) as [|x xs].
  - cbn [rbind] in E. exact (IH _ _ _ _ _ _ E).
  - destruct (arcs_op (word_op f) fuel G u x s) as [[G1 s1]| | |] eqn:E1; try discriminate. cbn [rbind] in E.
    exact (shape_trans _ _ _ (arcs_shape _ _ _ _ _ _ _ E1) (IH _ _ _ _ _ _ E)).
Qed.
End Word.
(** An operation without state that works on every word. *)
Lemma map_words (f : word -> unit -> res (word * unit)) (g : word -> word) (G : net word) fuel : wf_net G ->
  (forall x, arc_of G x -> exists w, n_data G x = Some w /\ f w tt = Ok (g w, tt)) -> n_nodes G + 2 * n_arcs G + 1 < fuel ->
  exists G', traverse_op (word_op f) fuel G tt = Ok (G', tt) /\ wf_net G' /\ same_shape G G' /\ (forall x, arc_of G x -> n_data G' x = option_map g (n_data G x)).
Proof.
  intros W H L. destruct (dag_rel (word_op f) (fun _ => True) G W (fun x d => d = [option_map g (n_data G x)])) with (fuel := fuel) (s := tt) as (G' & s' & d' & P' & E & _ & R & AL); auto.
  - intros x AX G1 s _ W1 A1 D1. exists tt. split; [exact I|]. left. destruct (H x AX) as (w & DW & FW). exists (option_map g (n_data G x)). split; [|tauto].
    unfold word_op. rewrite D1, DW. destruct s. rewrite FW. reflexivity.
  - destruct s'. exists G'. split; [exact E|]. split; [apply R|]. pose proof (trav_shape f _ _ _ _ _ _ _ E) as SH. split; [exact SH|]. intros x AX.
    destruct (r_done _ _ _ _ _ R x (AL x AX)) as (LX & B & C). destruct (proj1 (C [option_map g (n_data G x)]) eq_refl) as (p & HP & EP).
    destruct p as [|y [|? ?]]; try discriminate. injection EP as EP. destruct (B y [y] HP (or_introl eq_refl)) as [LY [->|GY]]; [symmetry; exact EP|].
    exfalso. destruct SH as (_ & _ & _ & _ & _ & _ & _ & EA). lia.
Qed.
