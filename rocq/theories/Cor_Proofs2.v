(** The rows printed are the sets of sentences in common. *)
From Coq Require Import List Arith ZArith NArith Bool Lia.
From Verif Require Import Base Text_Model NetDp_Model Word_Model Order_Model Order_Proofs1 Scores_Model Alex_Model Alex_Proofs1 Alex_Proofs2 Cor_Model Cor_Spec Cor_Proofs1.
Import ListNotations.
Local Open Scope res_scope.
Local Open Scope nat_scope.

(** ** printing without the table *)
Fixpoint print_rows (e : enc) (diff : bool) (cs : list (list sentence)) (to_print : bool) (st : state)
  : res (list (list sentence * shown) * state) :=
  match cs with
  | [] => Ok ([], st)
  | ps :: r =>
      let ls := map s_steps ps in
      let* to_print := if diff then let* d := scores_are_diff ls in Ok (if (d : bool) then to_print else false) else Ok to_print in
      let* (w, st) := if (to_print : bool) then multi_print e ls st else Ok (Skipped, st) in
      let st := {| t_ref := t_ref st; t_err := t_err st; t_totref := t_totref st + t_ref st; t_toterr := t_toterr st + t_err st; t_lex := t_lex st |} in
      let* (out, st) := print_rows e diff r to_print st in
      Ok ((ps, w) :: out, st)
  end.
Fixpoint print_groups (e : enc) (diff : bool) (cs : list (list (list sentence))) (st : state) : res (list (list (list sentence * shown)) * state) :=
  match cs with
  | [] => Ok ([], st)
  | c :: r => let* (out, st) := print_rows e diff c true st in let* (outs, st) := print_groups e diff r st in Ok (out :: outs, st)
  end.
Lemma rbind_ext {A B} (x : res A) (f g : A -> res B) : (forall a, f a = g a) -> rbind x f = rbind x g.
Proof. intros H. destruct x; cbn; auto. Qed.
Lemma dump_rows_eq e diff ss ptr rows cs : Forall2 (fun row ps => load ss ptr row = Ok ps) rows cs ->
  forall to_print st, dump_rows e diff ss ptr rows to_print st = print_rows e diff cs to_print st.
Proof.
  induction 1 as [|row ps rows cs E F IH]; intros to_print st; [reflexivity|]. cbn [dump_rows print_rows]. rewrite E. cbn [rbind]. cbv zeta.
  apply rbind_ext. intros tp. apply rbind_ext. intros (w, st'). rewrite IH. reflexivity.
Qed.
Fixpoint fits_table (ss : list system) (t : table) (gr : nat) (ptrs : list (list nat)) (nps : list nat) (cs : list (list (list sentence))) : Prop :=
  match ptrs, nps, cs with
  | [], [], [] => True
  | ptr :: ptrs', np :: nps', c :: cs' =>
      (exists rows, get t gr = Ok rows /\ np <= length rows /\ Forall2 (fun row ps => load ss ptr row = Ok ps) (firstn np rows) c)
      /\ fits_table ss t (gr + 1) ptrs' nps' cs'
  | _, _, _ => False
  end.
Lemma dump_groups_eq e diff ss t : forall ptrs nps cs gr st, fits_table ss t gr ptrs nps cs ->
  dump_groups e diff ss t ptrs nps gr st = print_groups e diff cs st.
Proof.
  induction ptrs as [|ptr ptrs IH]; intros [|np nps] [|c cs] gr st H; try (destruct H; fail); [reflexivity|]. destruct H as ((rows & E & L & F) & H).
  cbn [dump_groups print_groups]. rewrite E. cbn [rbind]. destruct (Nat.leb_spec np (length rows)); [|lia]. rewrite (dump_rows_eq _ _ _ _ _ _ F).
  apply rbind_ext. intros (out, st'). rewrite (IH nps cs) by exact H. reflexivity.
Qed.

(** ** rows *)
Lemma load_ok i ss : forall ptr os, others ss ptr os ->
  match idxs i os with
  | Some l => exists qs, all (map (with_id i) os) = Some qs /\ load ss ptr l = Ok qs
  | None => all (map (with_id i) os) = None end.
Proof.
  induction ss as [|s ss IH]; intros [|q ptr] [|o os] O; try (destruct O as (O1 & O2 & _); discriminate); cbn [idxs map all load].
  - exists []. auto.
  - apply others_cons in O as ((g & Eg & <-) & O). specialize (IH ptr os O). pose proof (idx_with i (snd g) 0) as X. destruct (idx i (snd g) 0) as [p|].
    + destruct X as (_ & x & -> & Nx). rewrite Nat.sub_0_r in Nx. destruct (idxs i os) as [l|].
      * destruct IH as (qs & -> & El). exists (x :: qs). split; [reflexivity|]. cbn [load]. rewrite (get_nth _ _ _ Eg). cbn [rbind]. rewrite (get_nth _ _ _ Nx). cbn [rbind]. rewrite El. reflexivity.
      * rewrite IH. reflexivity.
    + rewrite X. reflexivity.
Qed.
Lemma rows_ok s0 ss gr (g : group) ptr os : others ss ptr os -> nth_error s0 gr = Some g -> forall ps pre, snd g = pre ++ ps ->
  Forall2 (fun row c => load (s0 :: ss) (gr :: ptr) row = Ok c) (rows_of ps os (length pre)) (sets ps os).
Proof.
  intros O Eg. unfold sets. induction ps as [|p ps IH]; intros pre E; cbn [rows_of flat_map]; [constructor|].
  pose proof (load_ok (s_id p) ss ptr os O) as X. specialize (IH (pre ++ [p])). rewrite <- app_assoc, app_length in IH. cbn [app length] in IH. specialize (IH E).
  destruct (idxs (s_id p) os) as [l|].
  - destruct X as (qs & -> & El). cbn [app]. constructor; [|exact IH]. cbn [load]. rewrite (get_nth _ _ _ Eg). cbn [rbind].
    rewrite (get_nth _ (length pre) p) by (rewrite E, nth_error_app2, Nat.sub_diag by lia; reflexivity). cbn [rbind]. rewrite El. reflexivity.
  - rewrite X. exact IH.
Qed.
Lemma rows_len ps os : forall m, length (rows_of ps os m) <= length ps.
Proof. induction ps as [|p ps IH]; intros m; cbn [rows_of]; [cbn; lia|]. rewrite app_length. specialize (IH (m + 1)). destruct (idxs (s_id p) os); cbn [length]; lia. Qed.

(** ** groups *)
Lemma find_name_ok n s : forall k, match find_name n s k with
  | Some q => k <= q /\ exists g, nth_error s (q - k) = Some g /\ spoken n s = Some (snd g)
  | None => spoken n s = None end.
Proof.
  unfold spoken. induction s as [|g s IH]; intros k; cbn [find_name find]; [reflexivity|]. rewrite same_eqb. destruct (eqb (fst g) n).
  - split; [lia|]. exists g. rewrite Nat.sub_diag. auto.
  - specialize (IH (k + 1)). destruct (find_name n s (k + 1)) as [q|]; [|exact IH]. destruct IH as (L & g' & E & F). split; [lia|]. exists g'.
    split; [|exact F]. replace (q - k) with (S (q - (k + 1))) by lia. exact E.
Qed.
Lemma find_all_ok n ss : match find_all n ss, all (map (spoken n) ss) with
  | Some ptr, Some os => others ss ptr os
  | None, None => True
  | _, _ => False end.
Proof.
  induction ss as [|s ss IH]; cbn [find_all map all].
  - split; [reflexivity|]. split; [reflexivity|]. intros [|k] s q E; discriminate.
  - pose proof (find_name_ok n s 0) as X. destruct (find_name n s 0) as [q|].
    + destruct X as (_ & g & E & ->). rewrite Nat.sub_0_r in E. destruct (find_all n ss) as [ptr|], (all (map (spoken n) ss)) as [os|]; try contradiction; [|exact I].
      destruct IH as (L1 & L2 & H). split; [cbn; lia|]. split; [cbn; lia|]. intros [|k] s' q' A B; cbn in A, B.
      * injection A as <-. injection B as <-. exists g. auto.
      * destruct (H k s' q' A B) as (g' & C1 & C2). exists g'. auto.
    + rewrite X. exact I.
Qed.
Lemma same_row G R C t t' g r : shape t G R C -> shape t' G R C -> g < G -> r < R -> (forall c, c < C -> cv t' g r c = cv t g r c) ->
  nth r (nth g t' []) [] = nth r (nth g t []) [].
Proof.
  intros S1 S2 Hg Hr H. apply (nth_ext _ _ 0 0); [rewrite (sh_c _ _ _ _ S1), (sh_c _ _ _ _ S2) by assumption; reflexivity|].
  rewrite (sh_c _ _ _ _ S2) by assumption. exact H.
Qed.
Lemma max_ok s0 : forall m, m <= fold_left (fun m (g : group) => if m <? length (snd g) then length (snd g) else m) s0 m /\
  forall g, In g s0 -> length (snd g) <= fold_left (fun m (g : group) => if m <? length (snd g) then length (snd g) else m) s0 m.
Proof.
  induction s0 as [|g s0 IH]; intros m; cbn [fold_left]; [split; [lia|intros ? []]|]. destruct (IH (if m <? length (snd g) then length (snd g) else m)) as [A B].
  split; [destruct (Nat.ltb_spec m (length (snd g))); lia|]. intros g' [<-|Hg]; [destruct (Nat.ltb_spec m (length (snd g))); lia|apply B; exact Hg].
Qed.
Lemma matched_ok s0 ss R : (forall g, In g s0 -> length (snd g) <= R) -> forall s pre t, s0 = pre ++ s -> shape t (length s0) R (S (length ss)) ->
  exists t' nps, matched_paths s0 ss (matched_grp ss s (length pre)) t (length pre) = Ok (t', nps) /\ shape t' (length s0) R (S (length ss))
    /\ (forall g r c, g < length pre -> r < R -> c < S (length ss) -> cv t' g r c = cv t g r c)
    /\ fits_table (s0 :: ss) t' (length pre) (matched_grp ss s (length pre)) nps (map snd (common s ss)).
Proof.
  intros HR. induction s as [|g s IH]; intros pre t E Sh; cbn [matched_grp common].
  - exists t, []. cbn. auto.
  - pose proof (find_all_ok (fst g) ss) as X. destruct (find_all (fst g) ss) as [ptr|], (all (map (spoken (fst g)) ss)) as [os|]; try contradiction.
    2: { exists t, []. cbn. auto. }
    assert (Eg : nth_error (A:=group) s0 (length pre) = Some g) by (rewrite E, nth_error_app2, Nat.sub_diag by lia; reflexivity).
    assert (Hl : length pre < length s0) by (rewrite E, app_length; cbn; lia).
    assert (Lg : length (snd g) <= R) by (apply HR; rewrite E; apply in_or_app; right; left; reflexivity).
    cbn [matched_paths]. rewrite (get_nth (A:=group) _ _ _ Eg). cbn [rbind].
    destruct (paths_ok (length s0) R (S (length ss)) (length pre) Hl ss ptr os X eq_refl (snd g) t 0 0 Sh ltac:(lia) ltac:(lia)) as (t1 & -> & S1 & K1 & R1).
    cbn [rbind]. destruct (IH (pre ++ [g]) t1) as (t' & nps & Em & S' & K' & F'); [rewrite <- app_assoc; exact E|exact S1|].
    rewrite app_length in *. cbn [length] in *. rewrite Em. cbn [rbind]. exists t'. eexists. split; [reflexivity|]. split; [exact S'|]. split.
    + intros g' r c H1 H2 H3. rewrite K' by lia. apply K1; lia.
    + cbn [map snd fits_table]. split; [|exact F']. exists (nth (length pre) t' []).
      split; [apply get_ok; rewrite (sh_g _ _ _ _ S'); lia|]. rewrite (sh_r _ _ _ _ S') by lia. pose proof (rows_len (snd g) os 0) as Lr. cbn [Nat.add]. split; [lia|].
      replace (firstn _ _) with (rows_of (snd g) os 0); [apply (rows_ok s0 ss (length pre) g ptr os X Eg (snd g) [] eq_refl)|].
      apply (nth_ext _ _ [] []); [rewrite firstn_length_le by (rewrite (sh_r _ _ _ _ S') by lia; lia); reflexivity|]. intros k Hk.
      rewrite <- (R1 k) by exact Hk. cbn [Nat.add]. transitivity (nth k (nth (length pre) t' []) []).
      * symmetry. apply (same_row _ _ _ t1 t' _ _ S1 S'); [lia|lia|]. intros c Hc. apply K'; lia.
      * symmetry. apply nth_firstn. exact Hk.
Qed.
Lemma new_shape s0 n : shape (new_table s0 n) (length s0) (max_path s0) n.
Proof.
  unfold new_table. constructor.
  - apply repeat_length.
  - intros g H. rewrite (nth_indep _ [] (repeat (repeat 0 n) (max_path s0))) by (rewrite repeat_length; exact H). rewrite nth_repeat. apply repeat_length.
  - intros g r H H'. rewrite (nth_indep _ [] (repeat (repeat 0 n) (max_path s0))) by (rewrite repeat_length; exact H). rewrite nth_repeat.
    rewrite (nth_indep _ [] (repeat 0 n)) by (rewrite repeat_length; exact H'). rewrite nth_repeat. apply repeat_length.
Qed.
Lemma located s0 ss : exists c, locate_matched s0 ss = Ok c /\ fits_table (s0 :: ss) (c_path c) 0 (c_ptr c) (c_np c) (map snd (common s0 ss))
  /\ c_ptr c = matched_grp ss s0 0.
Proof.
  unfold locate_matched. cbv zeta. destruct (matched_ok s0 ss (max_path s0) (proj2 (max_ok s0 0)) s0 [] (new_table s0 (S (length ss))) eq_refl (new_shape _ _)) as (t' & nps & E & _ & _ & F).
  cbn [length] in *. rewrite E. cbn [rbind]. eexists. split; [reflexivity|]. cbn. auto.
Qed.
