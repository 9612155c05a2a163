(** Traversals of rows, and the rows made of texts without alternatives. *)
From Coq Require Import List NArith ZArith Arith Bool Lia.
From Verif Require Import Base Net_Model Net_Spec Net_Proofs1 Net_Proofs2 Net_Proofs3 Merge_Model Merge_Spec Merge_Proofs3
  Text_Model Text_Spec Text_Proofs1 Text_Proofs2 Text_Proofs3 Word_Model Anet_Model Anet_Spec Anet_Proofs1 Anet_Proofs2 Anet_Proofs3 Anet_Proofs4
  Cnet_Model Cnet_Proofs1.
Import ListNotations.
Local Open Scope res_scope.

Fixpoint fold_op {S} (f : word -> S -> res (word * S)) (ws : list word) (s : S) : res (list word * S) :=
  match ws with
  | [] => Ok ([], s)
  | w :: r => let* (w', s1) := f w s in let* (r', s2) := fold_op f r s1 in Ok (w' :: r', s2)
  end.
Definition rowat (G : net word) (c : nat) (l : list nat) (t : nat) (ws : list word) : Prop :=
  row G c l t /\ Forall2 (fun x w => n_data G x = Some w) l ws.

Lemma row_set (G : net word) x d l t : forall c, row G c l t -> row (set_data G x d) c l t.
Proof. induction l as [|y l IH]; intros c R; cbn [row] in *; [exact R|]. destruct R as [O R]. split; [exact O|]. apply IH, R. Qed.
Lemma f2_set (G : net word) x d l (ws : list word) : ~ In x l -> Forall2 (fun y w => n_data G y = Some w) l ws -> Forall2 (fun y w => n_data (set_data G x d) y = Some w) l ws.
Proof.
  intros N F. induction F as [|y w l ws H F IH]; constructor.
  - cbn [set_data n_data]. rewrite fupd_other; [exact H|]. intros ->. apply N. left. reflexivity.
  - apply IH. intros I. apply N. right. exact I.
Qed.
Lemma trav_row {S} (f : word -> S -> res (word * S)) : forall l ws ws' s s' G c t seen fuel, wf_net G -> n_stop G = Some t -> rowat G c l t ws ->
  fold_op f ws s = Ok (ws', s') -> length l + 1 < fuel -> (forall v, In v (map (n_to G) l) -> ~ In v seen) ->
  exists G', trav_op (word_op f) fuel G [c] seen s = Ok (G', s') /\ wf_net G' /\ n_stop G' = Some t /\ n_start G' = n_start G /\ rowat G' c l t ws' /\
    n_arcs G' = n_arcs G /\ n_nodes G' = n_nodes G /\ n_out G' = n_out G /\ n_from G' = n_from G /\ n_to G' = n_to G /\ (forall y, ~ In y l -> n_data G' y = n_data G y).
Proof.
  induction l as [|x l IH]; intros ws ws' s s' G c t seen fuel W ST [R F] FO L NS; (destruct fuel as [|fuel]; [lia|]); cbn [trav_op].
  - inversion F; subst. cbn [fold_op] in FO. injection FO as <- <-. destruct R as [-> O]. rewrite O. cbn [push_all rbind]. exists G.
    split; [destruct fuel; reflexivity|]. repeat (split; [assumption||reflexivity|]). split; [split; [split; [reflexivity|exact O]|constructor]|]. repeat (split; [reflexivity|]). auto.
  - inversion F as [|? w ? ws1 DX F1]; subst. cbn [fold_op] in FO. destruct (f w s) as [[w' s1]| | |] eqn:EF; try discriminate. cbn [rbind] in FO.
    destruct (fold_op f ws1 s1) as [[r' s2]| | |] eqn:EF2; try discriminate. cbn [rbind] in FO. injection FO as <- <-.
    destruct R as [O R]. rewrite O. cbn [push_all]. rewrite (Anet_Proofs4.mem_false (n_to G x) seen) by (apply NS; left; reflexivity).
    destruct fuel as [|f0]; [cbn [length] in L; lia|]. cbn [arcs_op]. rewrite O. cbn [next_of hd_error]. rewrite Nat.eqb_refl. unfold word_op at 1. rewrite DX, EF. cbn [rbind].
    assert (ND : ~ In x l). { pose proof (row_nodup G (x :: l) t c W (conj O R)) as ND. inversion ND; assumption. }
    destruct (IH ws1 r' s1 s2 (set_data G x (Some w')) (n_to G x) t (n_to G x :: seen) (Datatypes.S f0)) as (G' & E & W' & S1 & S2 & (R' & F') & K1 & K2 & K3 & K4 & K5 & K6).
    + apply wf_set, W.
    + exact ST.
    + split; [apply row_set, R|apply f2_set; assumption].
    + exact EF2.
    + cbn [length] in L. lia.
    + intros v I [E|J]; [|apply (NS v); [right; exact I|exact J]]. subst v. exact (row_not_c G l t _ W R I).
    + exists G'. split; [exact E|]. split; [exact W'|]. split; [exact S1|]. split; [exact S2|]. split.
      * split; [split; [rewrite K3; exact O|rewrite K5; exact R']|]. constructor; [|exact F']. rewrite K6 by exact ND. cbn [set_data n_data]. apply fupd_same.
      * repeat (split; [assumption|]). intros y NY. rewrite K6 by (intros I; apply NY; right; exact I). cbn [set_data n_data]. apply fupd_other. intros ->. apply NY. left. reflexivity.
Qed.
Definition rowof' (G : net word) (ws : list word) : Prop := wf_net G /\ exists t l, n_stop G = Some t /\ rowat G (n_start G) l t ws.
Lemma rowof_ne (G : net word) ws : rowof G ws -> ws <> [] -> rowof' G ws.
Proof. intros [W [[-> _]|(t & l & E & R & F & _)]] NE; [congruence|]. split; [exact W|]. exists t, l. split; [exact E|]. split; assumption. Qed.
Lemma traverse_row {S} (f : word -> S -> res (word * S)) G ws ws' s s' fuel : rowof' G ws -> fold_op f ws s = Ok (ws', s') -> length ws + 1 < fuel ->
  exists G', traverse_op (word_op f) fuel G s = Ok (G', s') /\ rowof' G' ws' /\ arc_count G' = arc_count G.
Proof.
  intros (W & t & l & E & R) FO L. unfold traverse_op.
  assert (LL : length l = length ws) by (destruct R as [_ F]; clear - F; induction F; cbn; congruence).
  destruct (trav_row f l ws ws' s s' G (n_start G) t [n_start G] fuel W E R FO) as (G' & E' & W' & S1 & S2 & R' & K1 & K2 & K3 & K4 & K5 & K6); [lia| |].
  - intros v I [<-|[]]. exact (row_not_c G l t _ W (proj1 R) I).
  - exists G'. split; [exact E'|]. split; [|unfold arc_count; rewrite K1, K3, K4; reflexivity]. split; [exact W'|]. exists t, l. split; [exact S1|]. rewrite S2. exact R'.
Qed.
Lemma row_says G ws : rowof' G ws -> forall d, nsays G d <-> d = map Some ws.
Proof.
  intros (W & t & l & E & R & F) d. rewrite (nsays_full G t d E). assert (M : map (n_data G) l = map Some ws) by (clear - F; induction F as [|x w l ws H F IH]; [reflexivity|cbn; rewrite H, IH; reflexivity]).
  split; [intros (xs & Fu & ->); apply (row_full G l t W E R) in Fu; subst xs; exact M|intros ->; exists l; split; [apply (row_full G l t W E R); reflexivity|auto]].
Qed.
Lemma row_head G w ws : rowof' G (w :: ws) -> exists x, n_out G (n_start G) = [x] /\ n_data G x = Some w.
Proof. intros (W & t & l & E & R & F). inversion F as [|x ? l' ? H F']; subst. destruct R as [O _]. eauto. Qed.
Lemma row_arcs G ws : rowof' G ws -> arc_count G = length ws.
Proof.
  intros (W & t & l & E & R & F). assert (LL : length l = length ws) by (clear - F; induction F; cbn; congruence). rewrite <- LL. unfold arc_count.
  assert (IN : forall x, In x (filter (fun x => Net_Model.mem x (n_out G (n_from G x))) (seq 0 (n_arcs G))) <-> In x l).
  { intros x. rewrite filter_In, in_seq. split.
    - intros [_ M]. apply mem_In in M. destruct (wf_reach _ W _ _ M) as (xs & P1). destruct (wf_coreach _ W _ _ M) as (t' & ys & Et & P2).
      assert (FU : full G (xs ++ x :: ys)). { exists t'. split; [exact Et|]. eapply npath_app; [exact P1|]. econstructor; eassumption. }
      apply (row_full G l t W E R) in FU. rewrite <- FU. apply in_app_iff. right. left. reflexivity.
    - intros I. assert (K : exists u, In x (n_out G u)).
      { generalize (n_start G) R. clear - I. induction l as [|y l IH]; intros c R; [destruct I|]. destruct R as [O R]. destruct I as [-> |I]; [exists c; rewrite O; left; reflexivity|exact (IH I _ R)]. }
      destruct K as (u & J). pose proof (wf_out G W x u J) as K. destruct K as (K1 & K2 & K). assert (n_from G x = u) by tauto. subst u. split; [|apply mem_In; exact J]. lia. }
  assert (N1 : NoDup (filter (fun x => Net_Model.mem x (n_out G (n_from G x))) (seq 0 (n_arcs G)))) by (apply NoDup_filter, seq_NoDup).
  assert (N2 : NoDup l) by exact (row_nodup G l t _ W R).
  apply Nat.le_antisymm; apply NoDup_incl_length; try assumption; intros x I; apply IN; exact I.
Qed.

(** ** Texts without alternatives *)
Lemma expand_row e create1 : forall l ws G c t seen fuel, wf_net G -> row G c l t -> Forall2 (fun x w => n_data G x = Some w) l ws ->
  Forall (fun w => has_brace (w_value w) = false) ws -> length l < fuel -> (forall v, In v (map (n_to G) l) -> ~ In v seen) -> expand_trav e create1 fuel G [c] seen = Ok G.
Proof.
  induction l as [|x l IH]; intros ws G c t seen fuel W R F HB L NS; (destruct fuel as [|fuel]; [cbn [length] in L; lia|]); cbn [expand_trav].
  - destruct R as [-> O]. rewrite O. cbn [push_all rbind]. destruct fuel; reflexivity.
  - inversion F as [|? w ? ws1 DX F1]; subst. destruct R as [O R]. rewrite O. cbn [push_all]. rewrite (Anet_Proofs4.mem_false (n_to G x) seen) by (apply NS; left; reflexivity).
    cbn [Anet_Model.arcs_loop]. rewrite O. cbn [next_of hd_error]. rewrite Nat.eqb_refl. unfold expand. rewrite DX, (Forall_inv HB). cbn [rbind].
    apply (IH ws1 G (n_to G x) t); auto; [exact (Forall_inv_tail HB)|cbn [length] in L; lia|].
    intros v I [E|J]; [|apply (NS v); [right; exact I|exact J]]. subst v. exact (row_not_c G l t _ W R I).
Qed.
Lemma create_plain e n cs ts ws j : tokenised cs ts -> Forall (is_char e) cs -> Forall (fun t => length (concat t) < MAXSTRING /\ ~ unclosed t) ts ->
  Forall2 (fun t w => token_word e (concat t) = Ok w) ts ws -> Forall (fun w => has_brace (w_value w) = false) ws -> ws <> [] ->
  exists G, create (S n) e (concat cs ++ 0%N :: j) = Ok G /\ rowof' G ws.
Proof.
  intros TK HC FT FW HB NE. assert (TO : tokens e MAXSTRING MAXSTRING (concat cs ++ 0%N :: j) = Ok (map (@concat _) ts)).
  { unfold tokens. apply tokens_cap; [exact TK|exact max_pos|exact HC|exact FT|rewrite app_length; pose proof (char_count e cs HC); lia]. }
  assert (F1 : Forall2 (fun t w => token_word e t = Ok w) (map (@concat _) ts) ws) by (clear - FW; induction FW; constructor; auto).
  destruct (words_row e _ ws F1 net_init []) as (G0 & E0 & R0).
  { split; [apply wf_init|]. left. auto. }
  cbn [app] in R0. pose proof R0 as R1. destruct R0 as [W [[-> _]|(t & l & E & R & F & LL)]]; [congruence|].
  exists G0. split; [|apply rowof_ne; assumption]. cbn [create]. rewrite TO. cbn [rbind]. rewrite E0. cbn [rbind].
  apply (expand_row e (create n e) l ws G0 (n_start G0) t); auto. intros v I [<-|[]]. exact (row_not_c G0 l t _ W R I).
Qed.
