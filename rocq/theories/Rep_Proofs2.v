From Coq Require Import List ZArith NArith Arith Bool String Lia Permutation.
From Verif Require Import Base Store_Model Store_Spec Store_Proofs Store_Proofs2 Token_Model Rep_Model Rep_Spec Rep_Proofs.
Import ListNotations.
Local Open Scope res_scope.

(** * Scoring *)
Lemma eval_ok : forall w o ref hyp, (ref, hyp) <> (None, None) ->
  exists v, score_eval w o ref hyp = Ok v /\ result_ok w o ref hyp v.
Proof.
  intros w o ref hyp N.
  assert (R : opt_ref o = true <-> forgives_ref o).
  { unfold opt_ref, forgives_ref. rewrite orb_true_iff, !str_eqb_spec. tauto. }
  assert (H : opt_hyp o = true <-> forgives_hyp o).
  { unfold opt_hyp, forgives_hyp, opt_ref. destruct (str_eqb (s_optionally o) (bytes "both")) eqn:A, (str_eqb (s_optionally o) (bytes "ref")) eqn:B; cbn [orb].
    - apply str_eqb_spec in A. split; [discriminate|]. rewrite A. discriminate.
    - apply str_eqb_spec in A. split; [discriminate|]. rewrite A. discriminate.
    - apply str_eqb_spec in B. split; [discriminate|]. rewrite B. discriminate.
    - apply str_eqb_spec. }
  destruct ref as [r|], hyp as [h|]; cbn [score_eval result_ok].
  - destruct (w_equiv w r h) eqn:E.
    + unfold speakers_agree. destruct (s_speaker o) eqn:S.
      * destruct (str_eqb _ _) eqn:Q; eexists; (split; [reflexivity|]).
        -- apply str_eqb_spec in Q. left. auto.
        -- right. left. split; [reflexivity|]. split; [reflexivity|]. intro X. specialize (X eq_refl). apply str_eqb_spec in X. congruence.
      * eexists. split; [reflexivity|]. left. split; [reflexivity|]. split; [reflexivity|discriminate].
    + eexists. split; [reflexivity|]. right. right. auto.
  - eexists. split; [reflexivity|]. destruct (w_optional w r && opt_ref o) eqn:Q.
    + apply andb_true_iff in Q as [Q1 Q2]. left. rewrite <- R. auto.
    + right. split; [reflexivity|]. intros [Q1 Q2]. apply R in Q2. rewrite Q1, Q2 in Q. discriminate.
  - eexists. split; [reflexivity|]. destruct (w_optional w h && opt_hyp o) eqn:Q.
    + apply andb_true_iff in Q as [Q1 Q2]. left. rewrite <- H. auto.
    + right. split; [reflexivity|]. intros [Q1 Q2]. apply H in Q2. rewrite Q1, Q2 in Q. discriminate.
  - congruence.
Qed.

Lemma score_row_ok : forall w o ref systems t, ~ In reference_key systems -> row_ref t = Some ref ->
  (forall k, In k systems -> exists e, ent t k = Some e /\ (ref, ev_token e) <> (None, None)) ->
  exists t', score_row w o ref systems t = Ok t' /\
    (forall k, In k systems -> exists e e', ent t k = Some e /\ ent t' k = Some e' /\ ev_token e' = ev_token e /\ result_ok w o ref (ev_token e) (ev_result e')) /\
    (forall k, ~ In k systems -> ent t' k = ent t k).
Proof.
  intros w o ref. induction systems as [|s systems IH]; intros t NR RR H; cbn [score_row].
  - exists t. split; [reflexivity|]. split; [intros k []|reflexivity].
  - destruct (mindex_ent t s) as [M1 M2]. destruct (mindex None t s) as [v t1]. cbn [fst snd] in M1, M2.
    destruct (H s (or_introl eq_refl)) as (e & E & N). rewrite E in M1. subst v.
    destruct (eval_ok w o ref (ev_token e) N) as (v & EV & RO). rewrite EV. cbn [rbind].
    set (e1 := {| ev_token := ev_token e; ev_result := v |}). set (t2 := mput t1 s (Some e1)).
    assert (E2 : forall k, ent t2 k = if str_eqb s k then Some e1 else ent t k) by (intro k; unfold t2; rewrite ent_mput, M2; reflexivity).
    destruct (IH t2) as (t' & ER & A & B).
    + intro X. apply NR. right. exact X.
    + unfold row_ref in *. rewrite E2, str_eqb_neq; [exact RR|]. intro X. apply NR. left. exact X.
    + intros k K. rewrite E2. destruct (str_eqb s k) eqn:Q.
      * exists e1. split; [reflexivity|exact N].
      * apply H. right. exact K.
    + exists t'. split; [exact ER|].
      assert (D : forall k, In k systems \/ ~ In k systems).
      { intro k. destruct (in_dec (list_eq_dec N.eq_dec) k systems); auto. }
      split.
      * intros k K. destruct (D k) as [I|I].
        -- destruct (A k I) as (x & x' & X1 & X2 & X3 & X4). rewrite E2 in X1. destruct (str_eqb s k) eqn:Q.
           ++ apply str_eqb_spec in Q. subst k. injection X1 as <-. exists e, x'. auto.
           ++ exists x, x'. auto.
        -- destruct K as [->|K]; [|contradiction]. exists e, e1. rewrite (B _ I), E2, str_eqb_refl. auto.
      * intros k K. rewrite B by (intro X; apply K; right; exact X). rewrite E2, str_eqb_neq; [reflexivity|]. intro X. apply K. left. exact X.
Qed.

(** What a row of the record must satisfy before scoring. *)
Definition row_ready (systems : list str) (t : talign) : Prop :=
  exists ref, row_ref t = Some ref /\ forall k, In k systems -> exists e, ent t k = Some e /\ (ref, ev_token e) <> (None, None).

Lemma score_rows_ok : forall w o systems rows, ~ In reference_key systems -> Forall (row_ready systems) rows ->
  exists rows', score_rows w o systems rows = Ok rows' /\
    (forall k s, In k systems -> Forall2 (scored w o) (flat_map (row_entry k s) rows) (flat_map (row_entry k s) rows')) /\
    (forall k s, In k systems -> List.length (flat_map (row_entry k s) rows') = List.length rows') /\
    (forall k s, ~ In k systems -> k <> reference_key -> flat_map (row_entry k s) rows' = flat_map (row_entry k s) rows) /\
    (forall k s, In k systems -> Forall (fun t => row_entry k s t <> []) rows').
Proof.
  intros w o systems rows NR F. induction F as [|t rows (ref & RR & H) F IH].
  - exists []. split; [reflexivity|]. repeat split; intros; constructor.
  - destruct IH as (rows' & E & A & L & B & C). destruct (score_row_ok w o ref systems t NR RR H) as (t' & E1 & A1 & B1).
    exists (t' :: rows'). cbn [score_rows]. rewrite reference_ent. unfold row_ref in RR.
    destruct (ent t reference_key) as [er|] eqn:ER; [|discriminate]. cbn [option_map] in RR. injection RR as RR. subst ref. cbn [rbind].
    rewrite E1, E. cbn [rbind]. split; [reflexivity|].
    assert (ER' : ent t' reference_key = Some er) by (rewrite B1 by exact NR; exact ER).
    assert (P : forall k s, In k systems -> exists e e', row_entry k s t = [e] /\ row_entry k s t' = [e'] /\ scored w o e e').
    { intros k s K. destruct (A1 k K) as (e & e' & X1 & X2 & X3 & X4). rewrite !row_entry_ent, X1, X2, ER, ER'.
      eexists. eexists. split; [reflexivity|]. split; [reflexivity|]. unfold scored. cbn. repeat split; [congruence|exact X4]. }
    split; [|split; [|split]].
    + intros k s K. cbn [flat_map]. destruct (P k s K) as (e & e' & -> & -> & S). cbn [app]. constructor; [exact S|apply A; exact K].
    + intros k s K. cbn [flat_map]. destruct (P k s K) as (e & e' & _ & -> & S). cbn [app List.length]. rewrite L by exact K. reflexivity.
    + intros k s N1 N2. cbn [flat_map]. rewrite B by assumption. f_equal. rewrite !row_entry_ent, ER, ER', B1 by exact N1. reflexivity.
    + intros k s K. constructor; [|apply C; exact K]. destruct (P k s K) as (e & e' & _ & -> & S). discriminate.
Qed.

Definition ready (systems : list str) (al : align) : Prop := forall s a t, In (s, a) al -> In t (as_rows a) -> row_ready systems t.

Lemma score_align_ok : forall w o systems al, ~ In reference_key systems -> ready systems al ->
  exists al', score_align w o systems al = Ok al' /\ map fst al' = map fst al /\
    (forall k, In k systems -> Forall2 (scored w o) (entries k al) (entries k al') /\ complete k al') /\
    (forall k, ~ In k systems -> k <> reference_key -> entries k al' = entries k al).
Proof.
  intros w o systems al NR. induction al as [|[s a] al IH]; intro R.
  - exists []. split; [reflexivity|]. split; [reflexivity|]. split; [|reflexivity]. intros k K. split; [constructor|]. intros ? ? ? [].
  - destruct IH as (al' & E & M & A & B); [intros x y z I1 I2; eapply R; [right; exact I1|exact I2]|].
    destruct (score_rows_ok w o systems (as_rows a) NR) as (rows' & E1 & A1 & _ & B1 & C1).
    { apply Forall_forall. intros t I. eapply R; [left; reflexivity|exact I]. }
    cbn [score_align]. rewrite E1, E. cbn [rbind]. eexists. split; [reflexivity|]. split; [cbn [map fst]; rewrite M; reflexivity|]. split.
    + intros k K. destruct (A k K) as [A' C']. split.
      * rewrite !entries_cons. apply Forall2_app; [apply A1; exact K|exact A'].
      * intros x y z [Q|I1] I2; [|eapply C'; eassumption]. injection Q as <- <-. cbn [as_rows] in I2.
        pose proof (C1 k s K) as F. rewrite Forall_forall in F. apply F. exact I2.
    + intros k N1 N2. rewrite !entries_cons, (B k N1 N2). unfold seg_entries. cbn [as_rows]. rewrite (B1 k s N1 N2). reflexivity.
Qed.

Lemma ready_spec : forall systems al,
  (forall k, In k systems -> complete k al /\ Forall (fun e => (n_ref e, n_hyp e) <> (None, None)) (entries k al)) ->
  systems <> [] -> ready systems al.
Proof.
  intros systems al H NE s a t I1 I2.
  assert (P : forall k, In k systems -> exists e r, ent t k = Some e /\ ent t reference_key = Some r /\ (ev_token r, ev_token e) <> (None, None)).
  { intros k K. destruct (H k K) as [C F]. specialize (C s a t I1 I2). rewrite row_entry_ent in C.
    destruct (ent t k) as [e|] eqn:E1; [|contradiction]. destruct (ent t reference_key) as [r|] eqn:E2; [|contradiction].
    exists e, r. split; [reflexivity|]. split; [reflexivity|].
    rewrite Forall_forall in F. specialize (F {| n_seg := s; n_ref := ev_token r; n_hyp := ev_token e; n_res := ev_result e |}). cbn in F. apply F.
    unfold entries. apply in_flat_map. exists (s, a). split; [exact I1|]. cbn [fst snd]. apply in_flat_map. exists t. split; [exact I2|].
    rewrite row_entry_ent, E1, E2. left. reflexivity. }
  destruct systems as [|k0 systems]; [congruence|]. destruct (P k0 (or_introl eq_refl)) as (e0 & r & _ & ER & _).
  exists (ev_token r). unfold row_ref. rewrite ER. split; [reflexivity|]. intros k K. destruct (P k K) as (e & r' & E & ER' & N).
  assert (r' = r) by congruence. subst. exists e. auto.
Qed.

(** * Counting *)
Definition plus (d : datas) (l : list entry) : datas :=
  {| d_segs := d_segs d;
     d_refs := d_refs d + count (with_result RCorrect) l + count (with_result RSubst) l + count (with_result RSpkSub) l + count (with_result RDel) l;
     d_corr := d_corr d + count (with_result RCorrect) l; d_sub := d_sub d + count (with_result RSubst) l;
     d_spk := d_spk d + count (with_result RSpkSub) l; d_del := d_del d + count (with_result RDel) l;
     d_ins := d_ins d + count (with_result RIns) l; d_segerrs := d_segerrs d |}.
Lemma plus_nil : forall d, plus d [] = d.
Proof. intros []. unfold plus, count. cbn. rewrite !Nat.add_0_r. reflexivity. Qed.
Lemma count_cons : forall A (p : A -> bool) x l, count p (x :: l) = (if p x then 1 else 0) + count p l.
Proof. intros. unfold count. cbn [filter]. destruct (p x); reflexivity. Qed.
Lemma count_app : forall A (p : A -> bool) l l', count p (l ++ l') = count p l + count p l'.
Proof. intros. unfold count. rewrite filter_app, app_length. reflexivity. Qed.

Lemma count_rows_ok : forall key s rows d err, Forall (fun t => row_entry key s t <> []) rows ->
  Forall final (flat_map (row_entry key s) rows) ->
  count_rows key rows d err = Ok (plus d (flat_map (row_entry key s) rows), Some (err || existsb (fun x => bad (n_res x)) (flat_map (row_entry key s) rows))).
Proof.
  intros key s. induction rows as [|t rows IH]; intros d err F G; cbn [count_rows flat_map].
  - rewrite plus_nil. cbn [existsb]. rewrite orb_false_r. reflexivity.
  - inversion F as [|? ? F1 F2]; subst. destruct (mindex_ent t key) as [M _]. rewrite M. cbn [flat_map] in G.
    rewrite row_entry_ent in *. destruct (ent t key) as [e|]; [|contradiction]. destruct (ent t reference_key) as [r|]; [|contradiction].
    cbn [app] in *. inversion G as [|? ? G1 G2]; subst. unfold final in G1. cbn [n_res n_hyp] in G1.
    cbn [existsb]. unfold bad at 1. cbn [n_res].
    destruct (ev_result e) eqn:Q; try contradiction; try (destruct (ev_token e); [|contradiction]); rewrite IH by assumption; f_equal; f_equal;
      try (unfold plus; rewrite !count_cons; unfold with_result; cbn [n_res res_eqb]; f_equal; cbn [add_correct add_subst add_spkerr add_del add_ins d_segs d_refs d_corr d_sub d_spk d_del d_ins d_segerrs]; lia);
      f_equal; cbn [res_eqb negb orb]; rewrite ?orb_true_r; reflexivity.
Qed.

Lemma dget_mput : forall m k d k', dget (mput m k d) k' = if str_eqb k k' then d else dget m k'.
Proof. intros. unfold dget. rewrite massoc_mput. destruct (str_eqb k k'); reflexivity. Qed.
Lemma total_mput : forall f m k d, f no_datas = 0 -> total f (mput m k d) + f (dget m k) = total f m + f d.
Proof.
  intros f m k d Z. induction m as [|[k' v] m IH]; cbn [mput].
  - cbn. rewrite Z. lia.
  - unfold dget. cbn [massoc]. destruct (str_eqb k' k); cbn [total fold_right snd].
    + unfold total. lia.
    + unfold dget in IH. unfold total in *. lia.
Qed.

Definition entry_of (w : world) (spk : str) (e : entry) : bool := str_eqb (w_spk w (n_seg e)) spk.
Lemma seg_entries_seg : forall key s a e, In e (seg_entries key s a) -> n_seg e = s.
Proof.
  intros key s a e H. apply in_flat_map in H as (t & _ & H). rewrite row_entry_ent in H.
  destruct (ent t key); [|contradiction]. destruct (ent t reference_key); [|contradiction]. destruct H as [<-|[]]. reflexivity.
Qed.
Lemma count_said : forall w spk v key s a, count (said w spk v) (seg_entries key s a) =
  if str_eqb (w_spk w s) spk then count (with_result v) (seg_entries key s a) else 0.
Proof.
  intros w spk v key s a.
  assert (H : forall e, In e (seg_entries key s a) -> n_seg e = s) by apply seg_entries_seg.
  induction (seg_entries key s a) as [|e l IH]; [destruct (str_eqb _ _); reflexivity|].
  rewrite !count_cons, IH by (intros; apply H; right; assumption). unfold said. rewrite (H e (or_introl eq_refl)).
  destruct (str_eqb (w_spk w s) spk); cbn [andb]; reflexivity.
Qed.

Lemma count_align_ok : forall w key al m, complete key al -> Forall final (entries key al) ->
  exists m', count_align w key al m = Ok (m', true) /\
    (forall spk, counted w key spk al (dget m spk) (dget m' spk)) /\
    (forall spk, massoc m' spk <> None <-> massoc m spk <> None \/ exists s, In s (map fst al) /\ w_spk w s = spk) /\
    total d_corr m' = total d_corr m + count (with_result RCorrect) (entries key al) /\
    total d_sub m' = total d_sub m + count (with_result RSubst) (entries key al) /\
    total d_spk m' = total d_spk m + count (with_result RSpkSub) (entries key al) /\
    total d_del m' = total d_del m + count (with_result RDel) (entries key al) /\
    total d_ins m' = total d_ins m + count (with_result RIns) (entries key al) /\
    total d_segs m' = total d_segs m + List.length al /\
    total d_refs m' = total d_refs m + count (with_result RCorrect) (entries key al) + count (with_result RSubst) (entries key al)
      + count (with_result RSpkSub) (entries key al) + count (with_result RDel) (entries key al).
Proof.
  intros w key. induction al as [|[s a] al IH]; intros m C G.
  - exists m. split; [reflexivity|]. split; [intro spk; constructor; unfold count; cbn; lia|].
    split; [intro spk; split; [auto|intros [H|(x & [] & _)]; exact H]|]. unfold count. cbn. repeat split; lia.
  - rewrite entries_cons in G. apply Forall_app in G as [G1 G2].
    assert (F : Forall (fun t => row_entry key s t <> []) (as_rows a)).
    { apply Forall_forall. intros t I. eapply C; [left; reflexivity|exact I]. }
    cbn [count_align]. rewrite (count_rows_ok key s _ _ false F G1). cbn [rbind orb].
    fold (seg_entries key s a). set (E := seg_entries key s a) in *. set (er := existsb (fun x => bad (n_res x)) E).
    set (d1 := add_seg er (plus (dget m (w_spk w s)) E)). set (m1 := mput m (w_spk w s) d1).
    destruct (IH m1) as (m' & EQ & CT & KS & T1 & T2 & T3 & T4 & T5 & T6 & T7); [intros x y z I1 I2; eapply C; [right; exact I1|exact I2]|exact G2|].
    exists m'. split; [exact EQ|].
    assert (TT : forall f, f no_datas = 0 -> total f m1 + f (dget m (w_spk w s)) = total f m + f d1) by (intros; apply total_mput; assumption).
    rewrite !entries_cons. fold E. split; [|split].
    + intro spk. destruct (CT spk) as [c1 c2 c3 c4 c5 c6 c7 c8]. unfold m1 in *. rewrite dget_mput in *.
      pose proof (fun v => count_said w spk v key s a) as CS. fold E in CS.
      assert (EF : faulty w key spk (s, a) = str_eqb (w_spk w s) spk && er).
      { unfold faulty, spoken. cbn [fst]. f_equal. unfold er. rewrite entries_cons. fold E. cbn. rewrite app_nil_r. reflexivity. }
      constructor; rewrite entries_cons || idtac; rewrite ?count_cons, ?count_app; fold E; rewrite ?CS, ?EF; change (spoken w spk (s, a)) with (str_eqb (w_spk w s) spk);
        destruct (str_eqb (w_spk w s) spk) eqn:Q;
        try (apply str_eqb_spec in Q; rewrite <- Q in * );
        cbn [andb]; rewrite ?c1, ?c2, ?c3, ?c4, ?c5, ?c6, ?c7, ?c8; unfold d1, add_seg, plus; cbn [d_segs d_refs d_corr d_sub d_spk d_del d_ins d_segerrs];
        try lia.
      * destruct er; lia.
    + intro spk. rewrite KS. unfold m1. rewrite massoc_mput. cbn [map fst In]. split.
      * intros [H|(x & I & Q)]; [|right; exists x; auto]. destruct (str_eqb (w_spk w s) spk) eqn:Q; [|auto].
        apply str_eqb_spec in Q. right. exists s. auto.
      * intros [H|(x & [I|I] & Q)].
        -- left. destruct (str_eqb (w_spk w s) spk); [discriminate|exact H].
        -- subst x. left. rewrite Q, str_eqb_refl. discriminate.
        -- right. exists x. auto.
    + rewrite !count_app. rewrite T1, T2, T3, T4, T5, T6, T7.
      pose proof (TT d_corr eq_refl). pose proof (TT d_sub eq_refl). pose proof (TT d_spk eq_refl). pose proof (TT d_del eq_refl).
      pose proof (TT d_ins eq_refl). pose proof (TT d_segs eq_refl). pose proof (TT d_refs eq_refl).
      unfold d1, add_seg, plus in *. cbn [d_segs d_refs d_corr d_sub d_spk d_del d_ins d_segerrs List.length] in *. repeat split; lia.
Qed.

Lemma scored_good : forall w o l l', Forall2 (scored w o) l l' -> Forall final l'.
Proof.
  intros w o l l' H. induction H as [|e e' l l' (A & B & C & R) H IH]; constructor; [|exact IH].
  unfold final. unfold result_ok in R. rewrite C. destruct (n_ref e), (n_hyp e); try contradiction;
    repeat match goal with R : _ \/ _ |- _ => destruct R as [R|R] | R : _ /\ _ |- _ => destruct R as [R ?] end; rewrite R; try exact I; discriminate.
Qed.

(** * Several reports with the same counters *)
Lemma reports_ok : forall w al ks m, Forall (fun k => complete k al /\ Forall final (entries k al)) ks ->
  exists ms, reports w ks al m = Ok ms /\ List.length ms = List.length ks /\
    forall i m', nth_error ms i = Some m' -> forall spk,
      let sum v := fold_right (fun k n => count (said w spk v) (entries k al) + n) 0 (firstn (S i) ks) in
      d_corr (dget m' spk) = d_corr (dget m spk) + sum RCorrect /\
      d_sub (dget m' spk) = d_sub (dget m spk) + sum RSubst /\
      d_spk (dget m' spk) = d_spk (dget m spk) + sum RSpkSub /\
      d_del (dget m' spk) = d_del (dget m spk) + sum RDel /\
      d_ins (dget m' spk) = d_ins (dget m spk) + sum RIns /\
      d_segs (dget m' spk) = d_segs (dget m spk) + S i * count (spoken w spk) al.
Proof.
  intros w al ks. induction ks as [|k ks IH]; intros m F.
  - exists []. split; [reflexivity|]. split; [reflexivity|]. intros [|i] m' H; discriminate.
  - inversion F as [|? ? [C G] F']; subst. destruct (count_align_ok w k al m C G) as (m1 & E & CT & _).
    destruct (IH m1 F') as (ms & E1 & L & P). cbn [reports]. rewrite E. cbn [rbind]. rewrite E1. cbn [rbind].
    exists (m1 :: ms). split; [reflexivity|]. split; [cbn [List.length]; rewrite L; reflexivity|].
    intros i m' H spk. destruct (CT spk) as [c1 c2 c3 c4 c5 c6 c7 c8]. destruct i as [|i]; cbn [nth_error] in H.
    + injection H as <-. cbn [firstn fold_right]. rewrite c1, c2, c3, c4, c5, c7. repeat split; lia.
    + specialize (P i m' H spk). cbn zeta in *. rewrite c1, c2, c3, c4, c5, c7 in P. cbn [firstn fold_right].
      destruct P as (p1 & p2 & p3 & p4 & p5 & p6). cbn [firstn fold_right] in *. rewrite p1, p2, p3, p4, p5, p6. repeat split; lia.
Qed.

(** * Reference words *)
Lemma said_refs : forall w o spk l l', Forall2 (scored w o) l l' -> ~ forgives_hyp o ->
  count (said w spk RCorrect) l' + count (said w spk RSubst) l' + count (said w spk RSpkSub) l' + count (said w spk RDel) l' =
  count (fun e => str_eqb (w_spk w (n_seg e)) spk && match n_ref e with Some _ => true | None => false end) l.
Proof.
  intros w o spk l l' H NF. induction H as [|e e' l l' (A & B & C & R) H IH]; [reflexivity|].
  rewrite !count_cons, <- IH. unfold said. rewrite A. destruct (str_eqb (w_spk w (n_seg e)) spk); cbn [andb]; [|lia].
  unfold result_ok in R. destruct (n_ref e), (n_hyp e); try contradiction;
    repeat match goal with R : _ \/ _ |- _ => destruct R as [R|R] | R : _ /\ _ |- _ => destruct R as [R ?] end; rewrite R; cbn [res_eqb]; try lia.
  exfalso. tauto.
Qed.
Lemma result_hyps : forall w o l l', Forall2 (scored w o) l l' -> ~ forgives_ref o ->
  count (with_result RCorrect) l' + count (with_result RSubst) l' + count (with_result RSpkSub) l' + count (with_result RIns) l' =
  count (fun e => match n_hyp e with Some _ => true | None => false end) l.
Proof.
  intros w o l l' H NF. induction H as [|e e' l l' (A & B & C & R) H IH]; [reflexivity|].
  rewrite !count_cons, <- IH. unfold with_result.
  unfold result_ok in R. destruct (n_ref e), (n_hyp e); try contradiction;
    repeat match goal with R : _ \/ _ |- _ => destruct R as [R|R] | R : _ /\ _ |- _ => destruct R as [R ?] end; rewrite R; cbn [res_eqb]; try lia.
  exfalso. tauto.
Qed.
Lemma count_perm : forall A (p : A -> bool) l l', Permutation l l' -> count p l = count p l'.
Proof.
  intros A p l l' H. induction H; rewrite ?count_cons; try lia; reflexivity.
Qed.
