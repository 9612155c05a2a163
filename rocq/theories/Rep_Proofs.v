From Coq Require Import List ZArith NArith Arith Bool String Lia Permutation.
From Verif Require Import Base Store_Model Store_Spec Store_Proofs Store_Proofs2 Token_Model Rep_Model Rep_Spec.
Import ListNotations.

(** * Rows and their entries *)
Lemma row_entry_ent : forall key s t, row_entry key s t =
  match ent t key, ent t reference_key with
  | Some e, Some r => [{| n_seg := s; n_ref := ev_token r; n_hyp := ev_token e; n_res := ev_result e |}]
  | _, _ => []
  end.
Proof.
  intros key s t. unfold row_entry, ent. fold reference_key. destruct (massoc t key) as [[e|]|]; try reflexivity.
  all: destruct (massoc t reference_key) as [[r|]|]; reflexivity.
Qed.

Definition seg_entries (key : str) (s : nat) (a : aseg) : list entry := flat_map (row_entry key s) (as_rows a).
Lemma entries_cons : forall key s a al, entries key ((s, a) :: al) = seg_entries key s a ++ entries key al.
Proof. reflexivity. Qed.

(** Invariant of one aligned segment. [K]: the systems registered so far. *)
Record rows_ok (K : list str) (a : aseg) : Prop := {
  ro_ref : Forall (fun t => row_ref t <> None) (as_rows a);
  ro_idx : forall r i, iassoc (as_index a) r = Some i <-> exists t, nth_error (as_rows a) i = Some t /\ row_ref t = Some (Some r);
  ro_key : Forall (fun t => exists k, In k K /\ ent t k <> None) (as_rows a) }.

Lemma new_rows_ok : forall K, rows_ok K new_aseg.
Proof.
  intro K. constructor; cbn; try constructor.
  - discriminate.
  - intros (t & H & _). destruct i; discriminate.
Qed.
Lemma rows_ok_more : forall K K' a, (forall k, In k K -> In k K') -> rows_ok K a -> rows_ok K' a.
Proof.
  intros K K' a H [A B C]. constructor; [exact A|exact B|]. eapply Forall_impl; [|exact C]. cbn beta. intros t (k & I & N). exists k. auto.
Qed.

Lemma row_ref_put : forall t k tok, k <> reference_key -> row_ref (snd (add_alignment_for t k tok)) = row_ref t.
Proof.
  intros t k tok N. unfold row_ref. destruct (add_ent t k tok) as [_ E]. rewrite E. destruct (ent t k); [reflexivity|].
  rewrite str_eqb_neq by exact N. reflexivity.
Qed.
Lemma row_ref_new : forall ref, row_ref (new_talign ref) = Some ref.
Proof. intro ref. unfold row_ref. rewrite ent_new, str_eqb_refl. reflexivity. Qed.

Lemma nth_split : forall A (l : list A) i x, nth_error l i = Some x -> exists l1 l2, l = l1 ++ x :: l2 /\ List.length l1 = i.
Proof. intros A l i x H. apply nth_error_split in H as (l1 & l2 & E & L). exists l1, l2. auto. Qed.
Lemma update_mid : forall A (l1 l2 : list A) x y, update_at (l1 ++ x :: l2) (List.length l1) y = l1 ++ y :: l2.
Proof. induction l1 as [|z l1 IH]; intros l2 x y; [reflexivity|]. cbn [app List.length update_at]. rewrite IH. reflexivity. Qed.


Lemma row_entry_put : forall s t key hyp ref, key <> reference_key -> row_ref t = Some ref -> ent t key = None ->
  row_entry key s t = [] /\
  row_entry key s (snd (add_alignment_for t key hyp)) = [{| n_seg := s; n_ref := ref; n_hyp := hyp; n_res := RUnavailable |}] /\
  forall k, k <> key -> row_entry k s (snd (add_alignment_for t key hyp)) = row_entry k s t.
Proof.
  intros s t key hyp ref NK RR EN. destruct (add_ent t key hyp) as [_ E]. rewrite EN in E. unfold row_ref in RR.
  rewrite !row_entry_ent, !E, EN, str_eqb_refl, (str_eqb_neq key reference_key) by exact NK.
  destruct (ent t reference_key) as [r|] eqn:Q; [|discriminate]. cbn [option_map] in RR. injection RR as <-.
  split; [reflexivity|]. split; [reflexivity|].
  intros k N. rewrite !row_entry_ent, !E, (str_eqb_neq key reference_key), (str_eqb_neq key k) by congruence. reflexivity.
Qed.

Lemma add_row : forall K own a ref key hyp s, rows_ok K a -> key <> reference_key ->
  match ref with Some r => own r = true | None => True end ->
  (forall r e, ref = Some r -> In e (seg_entries key s a) -> n_ref e <> Some r) ->
  exists n a', add_token_alignment own a ref key hyp = Ok (n, a') /\ rows_ok (key :: K) a' /\
    Permutation (seg_entries key s a') (seg_entries key s a ++ [{| n_seg := s; n_ref := ref; n_hyp := hyp; n_res := RUnavailable |}]) /\
    (forall k, k <> key -> k <> reference_key -> forall s, seg_entries k s a' = seg_entries k s a).
Proof.
  intros K own a ref key hyp s RO NK OW FR. unfold add_token_alignment.
  replace (match ref with Some r => negb (own r) | None => false end) with false by (destruct ref as [r|]; [rewrite OW|]; reflexivity).
  unfold get_talign_for. destruct RO as [R1 R2 R3].
  destruct (match ref with Some r => iassoc (as_index a) r | None => None end) as [i|] eqn:IX.
  - destruct ref as [r|]; [|discriminate]. apply R2 in IX as (t & N & RR). rewrite N.
    destruct (nth_split _ _ _ _ N) as (l1 & l2 & EL & LL).
    assert (EN : ent t key = None).
    { destruct (ent t key) as [e|] eqn:Q; [|reflexivity]. exfalso.
      apply (FR r {| n_seg := s; n_ref := Some r; n_hyp := ev_token e; n_res := ev_result e |} eq_refl); [|reflexivity].
      unfold seg_entries. apply in_flat_map. exists t. split; [apply nth_error_In in N; exact N|].
      rewrite row_entry_ent, Q. unfold row_ref in RR. destruct (ent t reference_key) as [x|]; [|discriminate].
      cbn [option_map] in RR. injection RR as ->. left. reflexivity. }
    destruct (row_entry_put s t key hyp _ NK RR EN) as (P1 & P2 & _).
    pose proof (fun s => row_entry_put s t key hyp _ NK RR EN) as P3.
    pose proof (row_ref_put t key hyp NK) as RP. destruct (add_ent t key hyp) as [_ E2]. rewrite EN in E2.
    destruct (add_alignment_for t key hyp) as [n t']. cbn [snd] in *.
    eexists. eexists. split; [reflexivity|]. cbn [as_rows as_index].
    rewrite EL in *. rewrite <- LL in *. rewrite update_mid. rewrite Forall_app in R1, R3. destruct R1 as [A1 A2], R3 as [B1 B2].
    inversion A2 as [|? ? A3 A4]; subst. inversion B2 as [|? ? B3 B4]; subst. split; [|split].
    + constructor; cbn [as_rows as_index].
      * apply Forall_app. split; [exact A1|]. constructor; [congruence|exact A4].
      * intros x j. rewrite R2. destruct (Nat.eq_dec j (List.length l1)) as [->|NE].
        -- rewrite !nth_error_app2, !Nat.sub_diag by lia. cbn [nth_error].
           split; intros (y & Q & Z); injection Q as <-; eexists; (split; [reflexivity|]); congruence.
        -- destruct (lt_dec j (List.length l1)) as [L|L].
           ++ rewrite !nth_error_app1 by lia. reflexivity.
           ++ rewrite !nth_error_app2 by lia. destruct (j - List.length l1) eqn:Q; [lia|]. reflexivity.
      * assert (W : forall t, (exists k, In k K /\ ent t k <> None) -> exists k, In k (key :: K) /\ ent t k <> None).
        { intros y (k & I & Q). exists k. split; [right; exact I|exact Q]. }
        apply Forall_app. split; [eapply Forall_impl; [|exact B1]; apply W|]. constructor; [|eapply Forall_impl; [|exact B4]; apply W].
        exists key. split; [left; reflexivity|]. rewrite E2, str_eqb_refl. discriminate.
    + unfold seg_entries. rewrite EL. cbn [as_rows]. rewrite !flat_map_app. cbn [flat_map]. rewrite P1, P2. cbn [app].
      rewrite <- app_assoc. apply Permutation_app_head. apply Permutation_cons_append.
    + intros k NE NR s'. unfold seg_entries. rewrite EL. cbn [as_rows]. rewrite !flat_map_app. cbn [flat_map].
      destruct (P3 s') as (_ & _ & X). rewrite X by exact NE. reflexivity.
  - rename IX into NI. cbn [as_rows as_index]. rewrite nth_error_app2, Nat.sub_diag by lia. cbn [nth_error].
    pose proof (row_ref_new ref) as RR.
    assert (EN : ent (new_talign ref) key = None) by (rewrite ent_new, str_eqb_neq by congruence; reflexivity).
    destruct (row_entry_put s _ key hyp _ NK RR EN) as (P1 & P2 & _).
    pose proof (fun s => row_entry_put s _ key hyp _ NK RR EN) as P3.
    pose proof (row_ref_put (new_talign ref) key hyp NK) as RP. rewrite RR in RP.
    destruct (add_ent (new_talign ref) key hyp) as [_ E2]. rewrite EN in E2.
    assert (E0 : forall k, k <> key -> forall s, row_entry k s (new_talign ref) = [] \/ k = reference_key).
    { intros k Nk s'. destruct (str_eqb reference_key k) eqn:Q.
      - apply str_eqb_spec in Q. auto.
      - left. rewrite row_entry_ent, ent_new, Q. reflexivity. }
    destruct (add_alignment_for (new_talign ref) key hyp) as [n t']. cbn [fst snd] in *.
    eexists. eexists. split; [reflexivity|]. rewrite update_at_app. split; [|split].
    + constructor; cbn [as_rows as_index].
      * apply Forall_app. split; [exact R1|]. repeat constructor. congruence.
      * intros r j.
        assert (NE : (exists t, nth_error (as_rows a ++ [t']) j = Some t /\ row_ref t = Some (Some r)) <->
                     (exists t, nth_error (as_rows a) j = Some t /\ row_ref t = Some (Some r)) \/ j = List.length (as_rows a) /\ ref = Some r).
        { split.
          - intros (t & N & Q). destruct (lt_dec j (List.length (as_rows a))) as [L|L].
            + rewrite nth_error_app1 in N by exact L. left. exists t. auto.
            + rewrite nth_error_app2 in N by lia. destruct (j - List.length (as_rows a)) as [|m] eqn:D; [|destruct m; discriminate].
              cbn in N. injection N as <-. right. split; [lia|congruence].
          - intros [(t & N & Q)|[-> ->]].
            + exists t. split; [|exact Q]. rewrite nth_error_app1; [exact N|]. apply nth_error_Some. congruence.
            + exists t'. rewrite nth_error_app2, Nat.sub_diag by lia. split; [reflexivity|exact RP]. }
        rewrite NE, <- R2. destruct ref as [x|]; cbn [iassoc].
        -- destruct (Nat.eqb_spec x r) as [->|NX].
           ++ rewrite NI. split; [intro Q; injection Q as <-; auto|]. intros [Q|[-> _]]; [discriminate|reflexivity].
           ++ split; [auto|]. intros [Q|[_ Q]]; [exact Q|congruence].
        -- split; [auto|]. intros [Q|[_ Q]]; [exact Q|discriminate].
      * apply Forall_app. split; [eapply Forall_impl; [|exact R3]; cbn beta; intros t (k & I & N); exists k; split; [right; exact I|exact N]|].
        constructor; [|constructor]. exists key. split; [left; reflexivity|]. rewrite E2, str_eqb_refl. discriminate.
    + unfold seg_entries. cbn [as_rows]. rewrite flat_map_app. apply Permutation_app_head. cbn [flat_map]. rewrite app_nil_r, P2. reflexivity.
    + intros k NE NR s'. unfold seg_entries. cbn [as_rows]. rewrite flat_map_app. cbn [flat_map].
      destruct (P3 s') as (_ & _ & X). rewrite X by exact NE. 
      destruct (E0 k NE s') as [->|Q]; [rewrite !app_nil_r; reflexivity|contradiction].
Qed.

(** * The segment of an inserted word *)
Lemma overlap_sym : forall a b, ordered a -> ordered b -> overlap_with a b = overlap_with b a.
Proof.
  intros a b A B. unfold ordered in *. unfold overlap_with.
  destruct (Z.leb_spec (to_start a) (to_start b)), (Z.leb_spec (to_start b) (to_start a)); try lia; try reflexivity.
Qed.
Lemma by_time_find : forall w segs h, ordered (w_time w h) -> Forall (fun s => ordered (w_stime w s)) segs ->
  by_time w segs h = match List.find (together w h) segs with Some s => Ok s | None => Exit end.
Proof.
  intros w segs h O F. induction F as [|s segs S F IH]; cbn [by_time List.find]; [reflexivity|].
  unfold together at 1. rewrite overlap_sym by assumption. destruct (overlap_with (w_time w h) (w_stime w s)); [reflexivity|exact IH].
Qed.
Lemma find_together : forall w segs h s, List.find (together w h) segs = Some s -> suits w h s = true.
Proof. intros w segs h s H. apply find_some in H as [_ H]. unfold suits. rewrite H. reflexivity. Qed.
Lemma pick_home : forall w segs before after h, ordered (w_time w h) -> Forall (fun s => ordered (w_stime w s)) segs ->
  pick 4 w segs (hd_error (rev (refs_in before))) (hd_error (refs_in after)) h false false =
  match home w segs before after h with Some s => Ok s | None => Exit end.
Proof.
  intros w segs before after h O F. unfold home.
  assert (SU : forall s, negb (overlap_with (w_time w h) (w_stime w s)) && (0 <=? to_start (w_time w h))%Z && (0 <=? to_end (w_time w h))%Z = negb (suits w h s)).
  { intro s. unfold suits, together. rewrite !negb_orb, <- !Z.leb_antisym. reflexivity. }
  pose proof (by_time_find w segs h O F) as BT.
  destruct (rev (refs_in before)) as [|r1 ?], (refs_in after) as [|r2 ?]; cbn [hd_error firstn app map List.find pick negb option_map rbind];
    rewrite ?BT, ?SU.
  - destruct (List.find (together w h) segs) as [s|] eqn:Q; cbn [rbind]; [|reflexivity]. rewrite SU, (find_together _ _ _ _ Q). reflexivity.
  - destruct (suits w h (w_seg w r2)); cbn [negb]; [reflexivity|].
    destruct (List.find (together w h) segs) as [s|] eqn:Q; cbn [rbind]; [|reflexivity]. rewrite SU, (find_together _ _ _ _ Q). reflexivity.
  - destruct (suits w h (w_seg w r1)); cbn [negb]; [reflexivity|].
    destruct (List.find (together w h) segs) as [s|] eqn:Q; cbn [rbind]; [|reflexivity]. rewrite SU, (find_together _ _ _ _ Q). reflexivity.
  - destruct (suits w h (w_seg w r1)); cbn [negb]; [reflexivity|].
    destruct (suits w h (w_seg w r2)); cbn [negb]; [reflexivity|].
    destruct (List.find (together w h) segs) as [s|] eqn:Q; cbn [rbind]; [|reflexivity]. rewrite SU, (find_together _ _ _ _ Q). reflexivity.
Qed.
Lemma first_some_word : forall l, first_some l = first_word l.
Proof. unfold first_word. induction l as [|[x|] l IH]; cbn [first_some filter is_word hd]; [reflexivity|reflexivity|exact IH]. Qed.
Lemma col_ref_pair : forall hri c, col_ref hri c = fst (col_pair hri c).
Proof. intros. apply first_some_word. Qed.
Lemma col_hyp_pair : forall hri c, col_hyp hri c = snd (col_pair hri c).
Proof. intros. apply first_some_word. Qed.
Lemma next_ref_hd : forall hri cols, next_ref hri cols = hd_error (refs_in (map (col_pair hri) cols)).
Proof.
  intros hri. induction cols as [|c cols IH]; [reflexivity|]. cbn [next_ref map refs_in flat_map]. rewrite col_ref_pair.
  destruct (fst (col_pair hri c)); [reflexivity|exact IH].
Qed.

(** * All segments *)
Definition align_ok (K : list str) (al : align) : Prop := Forall (fun e => rows_ok K (snd e)) al.
Lemma aget_ok : forall K al s, align_ok K al -> rows_ok K (aget al s).
Proof.
  intros K al s H. induction H as [|[k a] al A H IH]; cbn [aget]; [apply new_rows_ok|]. destruct (Nat.eqb k s); [exact A|exact IH].
Qed.
Lemma aput_ok : forall K al s a, align_ok K al -> rows_ok K a -> align_ok K (aput al s a).
Proof.
  intros K al s a H R. unfold align_ok in *. induction H as [|[k b] al A H IH]; cbn [aput]; [constructor; [exact R|constructor]|].
  destruct (Nat.eqb k s); constructor; assumption.
Qed.
Lemma align_ok_more : forall K K' al, (forall k, In k K -> In k K') -> align_ok K al -> align_ok K' al.
Proof. intros K K' al H A. eapply Forall_impl; [|exact A]. intro e. apply rows_ok_more, H. Qed.
Lemma entries_app : forall key l1 l2, entries key (l1 ++ l2) = entries key l1 ++ entries key l2.
Proof. intros. unfold entries. apply flat_map_app. Qed.
Lemma aput_split : forall al s, exists l1 l2,
  (forall a, aput al s a = l1 ++ (s, a) :: l2) /\ forall key, entries key al = entries key l1 ++ seg_entries key s (aget al s) ++ entries key l2.
Proof.
  induction al as [|[k b] al IH]; intro s.
  - exists [], []. split; reflexivity.
  - cbn [aput aget]. destruct (Nat.eqb_spec k s) as [->|N].
    + exists [], al. split; reflexivity.
    + destruct (IH s) as (l1 & l2 & A & B). exists ((k, b) :: l1), l2. split; [intro a; rewrite A; reflexivity|].
      intro key. rewrite !entries_cons, B, <- !app_assoc. reflexivity.
Qed.
Lemma touch_entries : forall key al s, entries key (touch al s) = entries key al.
Proof.
  intros key al s. unfold touch. destruct (aput_split al s) as (l1 & l2 & A & B). rewrite A, B, entries_app, entries_cons. reflexivity.
Qed.
Lemma touches : forall segs K al, align_ok K al -> align_ok K (fold_left touch segs al) /\ forall key, entries key (fold_left touch segs al) = entries key al.
Proof.
  induction segs as [|s segs IH]; intros K al H; cbn [fold_left]; [auto|].
  destruct (IH K (touch al s)) as [A B]; [apply aput_ok; [exact H|apply aget_ok; exact H]|].
  split; [exact A|]. intro key. rewrite B. apply touch_entries.
Qed.

Definition entry_refs (l : list entry) : list nat := flat_map (fun e => match n_ref e with Some x => [x] | None => [] end) l.
Lemma entry_refs_in : forall l e r, In e l -> n_ref e = Some r -> In r (entry_refs l).
Proof. intros l e r H E. apply in_flat_map. exists e. split; [exact H|]. rewrite E. left. reflexivity. Qed.
Lemma entry_refs_perm : forall l l', Permutation l l' -> Permutation (entry_refs l) (entry_refs l').
Proof. intros. apply Permutation_flat_map. assumption. Qed.
Lemma entry_refs_app : forall l l', entry_refs (l ++ l') = entry_refs l ++ entry_refs l'.
Proof. intros. apply flat_map_app. Qed.

Lemma put_entry : forall w K al key s p, align_ok K al -> key <> reference_key ->
  match fst p with Some r => s = w_seg w r /\ ~ In r (entry_refs (entries key al)) | None => True end ->
  exists n a, add_token_alignment (fun x => Nat.eqb (w_seg w x) s) (aget al s) (fst p) key (snd p) = Ok (n, a) /\
    align_ok (key :: K) (aput al s a) /\
    Permutation (entries key (aput al s a)) (entries key al ++ [{| n_seg := s; n_ref := fst p; n_hyp := snd p; n_res := RUnavailable |}]) /\
    forall k, k <> key -> k <> reference_key -> entries k (aput al s a) = entries k al.
Proof.
  intros w K al key s [ref hyp] AO NK H. cbn [fst snd] in *. destruct (aput_split al s) as (l1 & l2 & A & B).
  destruct (add_row K (fun x => Nat.eqb (w_seg w x) s) (aget al s) ref key hyp s (aget_ok _ _ _ AO) NK) as (n & a & E & RO & P & OT).
  - destruct ref as [r|]; [|exact I]. destruct H as [-> _]. apply Nat.eqb_refl.
  - intros r e -> I Q. destruct H as [_ H]. apply H. eapply entry_refs_in; [|exact Q]. rewrite B. apply in_or_app. right. apply in_or_app. left. exact I.
  - exists n, a. split; [exact E|]. split; [|split].
    + apply aput_ok; [|exact RO]. eapply align_ok_more; [|exact AO]. intros; right; assumption.
    + rewrite A, B, entries_app, entries_cons, <- app_assoc. apply Permutation_app_head.
      rewrite <- app_assoc. rewrite (Permutation_app_comm (entries key l2)). rewrite app_assoc. apply Permutation_app_tail. exact P.
    + intros k N1 N2. rewrite A, B, entries_app, entries_cons, (OT k N1 N2). reflexivity.
Qed.

(** * The columns of one alignment *)
Lemma refs_in_app : forall l l', refs_in (l ++ l') = refs_in l ++ refs_in l'.
Proof. intros. apply flat_map_app. Qed.
Definition word_refs (p : pair) : list nat := match fst p with Some x => [x] | None => [] end.
Lemma last_snoc : forall before p, hd_error (rev (refs_in (before ++ [p]))) =
  match fst p with Some x => Some x | None => hd_error (rev (refs_in before)) end.
Proof.
  intros before p. rewrite refs_in_app. cbn [refs_in flat_map]. rewrite app_nil_r. destruct (fst p) as [x|].
  - rewrite rev_app_distr. reflexivity.
  - rewrite app_nil_r. reflexivity.
Qed.

Local Open Scope res_scope.
Lemma columns_ok : forall w hri segs key, key <> reference_key -> Forall (fun s => ordered (w_stime w s)) segs ->
  forall cols before K al,
  let ps := map (col_pair hri) cols in
  Forall (fun p => p <> (None, None)) ps -> (forall h, In (None, Some h) ps -> ordered (w_time w h)) ->
  align_ok K al -> NoDup (entry_refs (entries key al) ++ refs_in ps) ->
  match placements w segs before ps with
  | Some p => exists al', add_columns w hri segs key (hd_error (rev (refs_in before))) cols al = Ok al' /\
      align_ok (key :: K) al' /\ Permutation (entries key al') (entries key al ++ p) /\
      forall k, k <> key -> k <> reference_key -> entries k al' = entries k al
  | None => add_columns w hri segs key (hd_error (rev (refs_in before))) cols al = Exit
  end.
Proof.
  intros w hri segs key NK SO. induction cols as [|c cols IH]; intros before K al ps NN HO AO ND.
  - cbn. exists al. split; [reflexivity|]. split; [eapply align_ok_more; [|exact AO]; intros; right; assumption|]. rewrite app_nil_r. split; [apply Permutation_refl|reflexivity].
  - cbn [map] in ps. subst ps. set (p := col_pair hri c) in *. set (ps := map (col_pair hri) cols) in *.
    inversion NN as [|? ? NP NN']; subst. cbn [placements add_columns].
    assert (STEP : forall s, seg_for w segs before ps p = Some s ->
      match placements w segs (before ++ [p]) ps with
      | Some r => exists al', (let* (_, a) := add_token_alignment (fun x => Nat.eqb (w_seg w x) s) (aget al s) (col_ref hri c) key (col_hyp hri c) in
           add_columns w hri segs key (match fst p with Some x => Some x | None => hd_error (rev (refs_in before)) end) cols (aput al s a)) = Ok al' /\
           align_ok (key :: K) al' /\ Permutation (entries key al') (entries key al ++ {| n_seg := s; n_ref := fst p; n_hyp := snd p; n_res := RUnavailable |} :: r) /\
           forall k, k <> key -> k <> reference_key -> entries k al' = entries k al
      | None => (let* (_, a) := add_token_alignment (fun x => Nat.eqb (w_seg w x) s) (aget al s) (col_ref hri c) key (col_hyp hri c) in
           add_columns w hri segs key (match fst p with Some x => Some x | None => hd_error (rev (refs_in before)) end) cols (aput al s a)) = Exit
      end).
    { intros s SF. destruct (put_entry w K al key s p AO NK) as (n & a & E & AO' & PM & OT).
      - destruct (fst p) as [r|] eqn:FP; [|exact I]. unfold seg_for in SF. rewrite FP in SF. split; [congruence|].
        cbn [refs_in flat_map] in ND. rewrite FP in ND. cbn [app] in ND. apply NoDup_remove_2 in ND. intro I. apply ND. apply in_or_app. left. exact I.
      - rewrite col_ref_pair, col_hyp_pair. fold p. rewrite E. cbn [rbind].
        rewrite <- last_snoc. specialize (IH (before ++ [p]) (key :: K) (aput al s a) NN').
        fold ps in IH. cbn zeta in IH. specialize (IH (fun h I => HO h (or_intror I)) AO').
        assert (ND' : NoDup (entry_refs (entries key (aput al s a)) ++ refs_in ps)).
        { eapply Permutation_NoDup; [|exact ND]. rewrite (entry_refs_perm _ _ PM), entry_refs_app, <- app_assoc.
          apply Permutation_app_head. cbn [refs_in flat_map entry_refs n_ref]. rewrite app_nil_r. apply Permutation_refl. }
        specialize (IH ND'). destruct (placements w segs (before ++ [p]) ps) as [r|].
        + destruct IH as (al' & E1 & A1 & P1 & O1). exists al'. split; [exact E1|]. split; [|split].
          * eapply align_ok_more; [|exact A1]. cbn [In]. tauto.
          * rewrite P1, PM, <- app_assoc. apply Permutation_refl.
          * intros k N1 N2. rewrite O1, OT by assumption. reflexivity.
        + exact IH. }
    unfold seg_for in *. rewrite col_ref_pair, col_hyp_pair in *. fold p. fold p in STEP.
    destruct (fst p) as [r|] eqn:FP.
    + cbn [rbind]. specialize (STEP _ eq_refl). destruct (placements w segs (before ++ [p]) ps); exact STEP.
    + destruct (snd p) as [h|] eqn:SP.
      * rewrite next_ref_hd. fold ps. rewrite pick_home; [|apply HO; left; destruct p; cbn [fst snd] in *; congruence|exact SO].
        destruct (home w segs before ps h) as [s|]; cbn [rbind]; [|reflexivity].
        specialize (STEP _ eq_refl). destruct (placements w segs (before ++ [p]) ps); exact STEP.
      * exfalso. apply NP. destruct p; cbn [fst snd] in *; congruence.
Qed.

Lemma job_done : forall w j K al, job_ok w j -> align_ok K al -> NoDup (entry_refs (entries (j_key j) al) ++ refs_in (j_pairs j)) ->
  match placements w (j_segs j) [] (j_pairs j) with
  | Some p => exists al', add_gas w (j_hri j) (j_segs j) (j_key j) (j_cols j) al = Ok al' /\ align_ok (j_key j :: K) al' /\
      Permutation (entries (j_key j) al') (entries (j_key j) al ++ p) /\
      forall k, k <> j_key j -> k <> reference_key -> entries k al' = entries k al
  | None => add_gas w (j_hri j) (j_segs j) (j_key j) (j_cols j) al = Exit
  end.
Proof.
  intros w j K al (NK & NN & SO & HO) AO ND. unfold j_pairs in *. unfold add_gas. destruct (j_cols j) as [|c cols] eqn:EC.
  - cbn [map placements]. destruct (touches (j_segs j) K al AO) as [A B]. eexists. split; [reflexivity|].
    split; [eapply align_ok_more; [|exact A]; intros; right; assumption|]. rewrite B, app_nil_r. split; [apply Permutation_refl|]. intros; apply B.
  - apply (columns_ok w (j_hri j) (j_segs j) (j_key j) NK SO (c :: cols) [] K al NN HO AO ND).
Qed.

Definition place_job (w : world) (j : job) : option (list entry) := placements w (j_segs j) [] (j_pairs j).
Fixpoint place_jobs (w : world) (js : list job) : option (list (list entry)) :=
  match js with
  | [] => Some []
  | j :: r => match place_job w j, place_jobs w r with Some p, Some l => Some (p :: l) | _, _ => None end
  end.
Definition placed_for (key : str) (js : list job) (ps : list (list entry)) : list entry :=
  flat_map (fun x => if str_eqb (j_key (fst x)) key then snd x else []) (combine js ps).

Lemma placements_refs : forall w segs l before p, placements w segs before l = Some p -> entry_refs p = refs_in l.
Proof.
  induction l as [|x l IH]; intros before p H; cbn [placements] in H; [injection H as <-; reflexivity|].
  destruct (seg_for w segs before l x); [|discriminate]. destruct (placements w segs (before ++ [x]) l) as [r|] eqn:Q; [|discriminate].
  injection H as <-. cbn [entry_refs flat_map n_ref refs_in]. f_equal. exact (IH _ _ Q).
Qed.

Lemma NoDup_app_l : forall A (l l' : list A), NoDup (l ++ l') -> NoDup l.
Proof.
  induction l as [|x l IH]; intros l' H; [constructor|]. inversion H; subst. constructor; [|eapply IH; eassumption].
  intro I. apply H2. apply in_or_app. auto.
Qed.
Lemma run_jobs_ok : forall w js K al, Forall (job_ok w) js -> align_ok K al ->
  (forall key, key <> reference_key -> NoDup (entry_refs (entries key al) ++ refs_in (flat_map j_pairs (jobs_for key js)))) ->
  match place_jobs w js with
  | Some ps => exists al', run_jobs w js al = Ok al' /\ align_ok (rev (map j_key js) ++ K) al' /\
     forall key, key <> reference_key -> Permutation (entries key al') (entries key al ++ placed_for key js ps)
  | None => run_jobs w js al = Exit
  end.
Proof.
  intros w js. induction js as [|j js IH]; intros K al F AO ND; cbn [place_jobs run_jobs].
  - exists al. split; [reflexivity|]. split; [exact AO|]. intros key _. cbn. rewrite app_nil_r. apply Permutation_refl.
  - inversion F as [|? ? JO F']; subst. pose proof JO as (NK & _).
    assert (ND1 : NoDup (entry_refs (entries (j_key j) al) ++ refs_in (j_pairs j))).
    { specialize (ND (j_key j) NK). unfold jobs_for in ND. cbn [filter] in ND. rewrite str_eqb_refl in ND. cbn [flat_map] in ND.
      rewrite refs_in_app, app_assoc in ND. apply NoDup_app_l in ND. exact ND. }
    pose proof (job_done w j K al JO AO ND1) as H. unfold place_job.
    destruct (placements w (j_segs j) [] (j_pairs j)) as [p|] eqn:EP; [|rewrite H; reflexivity].
    destruct H as (al' & E & A & P & O). rewrite E.
    specialize (IH (j_key j :: K) al' F' A).
    assert (ND' : forall key, key <> reference_key -> NoDup (entry_refs (entries key al') ++ refs_in (flat_map j_pairs (jobs_for key js)))).
    { intros key N. specialize (ND key N). unfold jobs_for in *. cbn [filter] in ND. destruct (str_eqb (j_key j) key) eqn:Q.
      - apply str_eqb_spec in Q. subst key. cbn [flat_map] in ND. rewrite refs_in_app in ND.
        eapply Permutation_NoDup; [|exact ND]. rewrite (entry_refs_perm _ _ P), entry_refs_app, (placements_refs _ _ _ _ _ EP), <- app_assoc. apply Permutation_refl.
      - rewrite O; [exact ND| |exact N]. intro X. subst key. rewrite str_eqb_refl in Q. discriminate. }
    specialize (IH ND'). destruct (place_jobs w js) as [ps|].
    + destruct IH as (al2 & E2 & A2 & P2). exists al2. split; [exact E2|]. split.
      * cbn [map rev]. rewrite <- app_assoc. exact A2.
      * intros key N. rewrite (P2 key N). unfold placed_for. cbn [combine flat_map fst snd]. destruct (str_eqb (j_key j) key) eqn:Q.
        -- apply str_eqb_spec in Q. subst key. rewrite P, <- app_assoc. apply Permutation_refl.
        -- rewrite O; [apply Permutation_refl| |exact N]. intro X. subst key. rewrite str_eqb_refl in Q. discriminate.
    + exact IH.
Qed.
