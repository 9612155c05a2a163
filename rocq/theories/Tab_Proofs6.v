(** Lemmas for the sums, the counters and the names of the files. *)
From Coq Require Import String List ZArith NArith Arith Bool QArith Lia Lqa Permutation Sorted.
From Verif Require Import Base Store_Model Sgml_Model Stats_Model Pad_Model Rep_Model Rep_Spec Rep_Proofs2 Tab_Model Tab_Spec Tab_Proofs1 Tab_Proofs2 Tab_Proofs3 Tab_Proofs4 Store_Proofs.
Import ListNotations.
Local Open Scope res_scope.
Local Open Scope nat_scope.
Local Notation length := List.length.

Lemma all_cons f e m : all f (e :: m) = f (snd e) + all f m.
Proof. reflexivity. Qed.
Lemma all_errors m : all errors m = all d_errors m.
Proof. unfold all. f_equal. apply map_ext. intros e. symmetry. apply errors_eq. Qed.
Lemma all_counted m : Forall (fun e => counted (snd e)) m ->
  all d_refs m = all d_corr m + all d_sub m + all d_spk m + all d_del m /\ all errors m = all d_sub m + all d_spk m + all d_del m + all d_ins m /\ all d_segerrs m <= all d_segs m /\ length m <= all d_segs m.
Proof.
  induction 1 as [|e m (C1 & C2 & C3) F (I1 & I2 & I3 & I4)]; [cbn; lia|]. rewrite !all_cons. unfold errors at 1. cbn [length]. lia.
Qed.
Lemma shown_sums inc m f : In f (shown inc) -> Forall (fun e => counted (snd e)) m -> (100 * Z.of_nat (all errors m) <= 9999 * Z.of_nat (all d_refs m))%Z ->
  (100 * Z.of_nat (all f m) <= 9999 * Z.of_nat (all d_refs m))%Z.
Proof.
  intros I F E. destruct (all_counted m F) as (A & B & _). pose proof (all_errors m) as EE. unfold shown in I. destruct inc; cbn [app In] in I; repeat (destruct I as [<-|I]); try contradiction; lia.
Qed.

(** ** The counters of the speakers *)
Definition counted_pre (d : datas) : Prop := d_refs d = d_corr d + d_sub d + d_spk d + d_del d /\ d_segerrs d <= d_segs d.
Lemma count_rows_pre key rows : forall d e d' o, counted_pre d -> count_rows key rows d e = Ok (d', o) -> counted_pre d'.
Proof.
  unfold counted_pre. induction rows as [|t rows IH]; intros d e d' o P E; cbn [count_rows] in E; [injection E as <- <-; exact P|].
  destruct (fst (mindex None t key)) as [ev|]; [|discriminate]. destruct (ev_result ev); try discriminate; try (injection E as <- <-; exact P);
    try (destruct (ev_token ev); [|discriminate]); (eapply IH; [|exact E]); cbn; lia.
Qed.
Definition table_ok (m : smap datas) : Prop := NoDup (map fst m) /\ Forall (fun e => counted (snd e)) m.
Lemma mput_fst {V} (m : smap V) k v x : In x (map fst (mput m k v)) -> x = k \/ In x (map fst m).
Proof.
  induction m as [|(k', v') m IH]; cbn [mput map fst]; [intros [<-|[]]; left; reflexivity|]. destruct (str_eqb k' k) eqn:E; cbn [map fst In]; [tauto|]. intros [<-|I]; [tauto|]. destruct (IH I); tauto.
Qed.
Lemma mput_nodup {V} (m : smap V) k v : NoDup (map fst m) -> NoDup (map fst (mput m k v)).
Proof.
  induction m as [|(k', v') m IH]; intros N; cbn [mput map fst]; [constructor; [intros []|constructor]|]. inversion N as [|? ? N1 N2]; subst. destruct (str_eqb k' k) eqn:E; cbn [map fst]; constructor; auto.
  intros I. apply mput_fst in I as [->|I]; [|contradiction]. rewrite (proj2 (str_eqb_spec k k) eq_refl) in E. discriminate.
Qed.
Lemma mput_forall {V} (P : str * V -> Prop) (m : smap V) k v : (forall k', P (k', v)) -> Forall P m -> Forall P (mput m k v).
Proof.
  intros PV. induction 1 as [|(k', v') m H F IH]; cbn [mput]; [constructor; [apply PV|constructor]|]. destruct (str_eqb k' k); constructor; auto.
Qed.
Lemma dget_pre m k : Forall (fun e => counted (snd e)) m -> counted_pre (dget m k).
Proof.
  intros F. unfold dget. destruct (massoc m k) as [d|] eqn:E; [|cbv; lia]. induction F as [|(k', v') m H F IH]; [discriminate|]. cbn [massoc] in E. destruct (str_eqb k' k); [|auto]. injection E as <-. destruct H as (A & B & _). split; assumption.
Qed.
Lemma count_align_table w key al : forall m m', table_ok m -> count_align w key al m = Ok (m', true) -> table_ok m'.
Proof.
  induction al as [|(s, a) al IH]; intros m m' (N & F) E; cbn [count_align] in E; [injection E as <-; split; assumption|].
  destruct (count_rows key (as_rows a) (dget m (w_spk w s)) false) as [(d, o)| | |] eqn:R; cbn [rbind] in E; try discriminate.
  destruct o as [err|]; [|discriminate]. apply (IH _ _) in E; [exact E|]. destruct (count_rows_pre _ _ _ _ _ _ (dget_pre m _ F) R) as (A & B). split; [apply mput_nodup, N|]. apply mput_forall; [|exact F].
  intros k'. cbn [snd]. unfold counted, add_seg. cbn. destruct err; lia.
Qed.
Lemma table_ok_segs m : table_ok m -> Forall (fun e => 1 <= d_segs (snd e)) m.
Proof. intros (_ & F). eapply Forall_impl; [|exact F]. intros e (_ & _ & H). exact H. Qed.
Lemma generate_ok raw inc junk outdir opens where_ w al nce tnce : forall systems m k, table_ok m ->
  Forall (fun s => complete (fst s) al /\ Forall final (entries (fst s) al)) systems ->
  exists ms ts, reports w (map fst systems) al m = Ok ms /\ length ts = length systems
    /\ generate raw inc junk outdir opens where_ w al nce tnce k systems m = Ok (combine (map (fun s => target raw outdir opens where_ (snd s)) systems) ts)
    /\ forall i s, nth_error systems i = Some s -> exists m' t, nth_error ms i = Some m' /\ nth_error ts i = Some t /\ table_ok m' /\ table raw inc junk m' (nce (k + i)) (tnce (k + i)) (fst s) = Ok t.
Proof.
  induction systems as [|(s, f) systems IH]; intros m k T F; cbn [reports generate map fst].
  - exists [], []. do 3 (split; [reflexivity|]). intros [|i] s H; discriminate H.
  - inversion F as [|? ? (C & G) F']; subst. cbn [fst] in *. destruct (count_align_ok w s al m C G) as (m' & E & _). rewrite E. cbn [rbind].
    pose proof (count_align_table w s al m m' T E) as T'. destruct (table_made raw inc junk m' (nce k) (tnce k) s (table_ok_segs m' T')) as (p & ET & _). rewrite ET. cbn [rbind].
    destruct (IH m' (S k) T' F') as (ms & ts & R & L & GE & K). rewrite R, GE. cbn [rbind]. exists (m' :: ms), (assembled inc m' p :: ts). split; [reflexivity|]. split; [cbn [length]; lia|]. split; [reflexivity|].
    intros [|i] s' H; cbn [nth_error] in *; [|].
    + injection H as <-. exists m', (assembled inc m' p). rewrite Nat.add_0_r. do 2 (split; [reflexivity|]). split; [exact T'|exact ET].
    + destruct (K i s' H) as (m2 & t & A & B & D & ED). exists m2, t. do 3 (split; [assumption|]). rewrite Nat.add_succ_r. exact ED.
Qed.
Lemma file_name_ok path : ~ In 47%N (file_name path) /\ (path = file_name path \/ exists d, path = d ++ [47%N] ++ file_name path).
Proof.
  induction path as [|c r (IH1 & IH2)]; [split; [intros []|left; reflexivity]|]. cbn [file_name]. destruct (existsb (N.eqb 47) (c :: r)) eqn:E.
  - split; [exact IH1|]. right. destruct IH2 as [IH2|(d & IH2)].
    + cbn [existsb] in E. rewrite orb_true_iff in E. destruct E as [E|E]; [apply N.eqb_eq in E; subst c; exists []; cbn [app]; f_equal; exact IH2|].
      exfalso. rewrite IH2 in E. apply existsb_exists in E as (x & I & E). apply N.eqb_eq in E. subst x. apply IH1. exact I.
    + exists (c :: d). cbn [app]. f_equal. exact IH2.
  - split; [|left; reflexivity]. intros I. rewrite (proj2 (existsb_exists _ _)) in E; [discriminate|]. exists 47%N. split; [exact I|reflexivity].
Qed.

Lemma full_82 raw inc junk m nce tnce p : made raw inc junk m nce tnce p -> (7 <= w_name (p_w p))%Z -> (82 <= full inc (p_w p))%Z.
Proof.
  intros M N7. unfold full, w_nce. pose proof (m_wsegs _ _ _ _ _ _ _ M) as A. pose proof (m_wrefs _ _ _ _ _ _ _ M) as B. pose proof (m_wserr _ _ _ _ _ _ _ M) as C. pose proof (m_wcols _ _ _ _ _ _ _ M) as D.
  pose proof (column_wide _ _ _ _ (m_cs _ _ _ _ _ _ _ M)) as E. pose proof (cols_length _ _ _ _ _ _ _ M) as L. rewrite D.
  assert (30 <= fold_right Z.add 0 (map c_size (p_cs p)))%Z.
  { rewrite <- (map_length c_size) in L. revert E L. generalize (map c_size (p_cs p)). intros l E L. destruct inc; repeat (destruct E as [|? ? ? E]; try discriminate L); cbn [fold_right]; lia. }
  destruct inc; lia.
Qed.
Lemma speaker_rules raw inc junk w star nce : forall rows ls, speaker_lines raw inc junk w star nce rows = Ok ls -> forall k, k < length rows -> nth_error ls (2 * k) = Some (ruler "|" "-" (full inc w)).
Proof.
  induction rows as [|(n, d) rows IH]; intros ls E k K; [cbn in K; lia|]. cbn [speaker_lines] in E. destruct (speaker_line raw inc junk w star n d (nce n)) as [x| | |]; cbn [rbind] in E; try discriminate.
  destruct (speaker_lines raw inc junk w star nce rows) as [xs| | |]; cbn [rbind] in E; try discriminate. injection E as <-. destruct k as [|k]; [reflexivity|]. replace (2 * S k) with (S (S (2 * k))) by lia. cbn [nth_error]. apply IH; [reflexivity|cbn [length] in K; lia].
Qed.
