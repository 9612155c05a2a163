From Coq Require Import List ZArith NArith Arith Bool Lia Permutation Sorted.
From Verif Require Import Base Store_Model Store_Proofs Segm_Model Segm_Spec Segm_Proofs Uem_Model Uem_Spec.
Import ListNotations.
Local Open Scope Z_scope.

(** * The filter *)
Lemma starts_with_spec : forall p f, starts_with p f = true <-> exists rest, f = p ++ rest.
Proof.
  induction p as [|x p IH]; intros f; cbn [starts_with].
  - split; [intros _; exists f; reflexivity|reflexivity].
  - destruct f as [|y f]; [split; [discriminate|intros [r H]; discriminate]|].
    rewrite andb_true_iff, N.eqb_eq, IH. split.
    + intros [-> [r ->]]. exists r. reflexivity.
    + intros [r H]. injection H as -> ->. split; [reflexivity|]. exists r. reflexivity.
Qed.

Lemma find_elements_in : forall m s u, In u (find_elements m (r_src s) (r_ch s)) <-> In u m /\ concerns u s.
Proof.
  intros m s u. unfold find_elements, concerns. rewrite filter_In, andb_true_iff, starts_with_spec, str_eqb_spec. reflexivity.
Qed.

Lemma ref_loop_keep : forall s els e, fst (ref_loop s els e) = existsb (fun u => (u_from u <=? r_start s) && (r_end s <=? u_to u)) els.
Proof.
  induction els as [|u els IH]; intro e; cbn [ref_loop existsb]; [reflexivity|].
  destruct ((u_from u <=? r_start s) && (r_end s <=? u_to u)); [reflexivity|]. apply IH.
Qed.
Lemma hyp_loop_keep : forall mid els, hyp_loop mid els = existsb (fun u => (u_from u <=? mid) && (mid <=? u_to u)) els.
Proof.
  induction els as [|u els IH]; cbn [hyp_loop existsb]; [reflexivity|].
  destruct ((u_from u <=? mid) && (mid <=? u_to u)); [reflexivity|]. exact IH.
Qed.

Definition keep_ref (m : list uem) (s : rseg) : bool :=
  existsb (fun u => (u_from u <=? r_start s) && (r_end s <=? u_to u)) (find_elements m (r_src s) (r_ch s)).
Definition keep_hyp (m : list uem) (s : rseg) : bool :=
  hyp_loop (Z.quot (r_start s + r_end s) 2) (find_elements m (r_src s) (r_ch s)).

Lemma keep_ref_spec : forall m s, keep_ref m s = true <-> covered m s.
Proof.
  intros m s. unfold keep_ref, covered. rewrite existsb_exists. split.
  - intros (u & I & H). apply find_elements_in in I as [I C]. apply andb_prop in H as [H1 H2].
    apply Z.leb_le in H1. apply Z.leb_le in H2. exists u. auto.
  - intros (u & I & C & H1 & H2). exists u. split; [apply find_elements_in; auto|].
    apply andb_true_iff. split; apply Z.leb_le; assumption.
Qed.
Lemma keep_hyp_spec : forall m s, keep_hyp m s = true <-> mid_covered m s.
Proof.
  intros m s. unfold keep_hyp, mid_covered. rewrite hyp_loop_keep, existsb_exists. split.
  - intros (u & I & H). apply find_elements_in in I as [I C]. apply andb_prop in H as [H1 H2].
    apply Z.leb_le in H1. apply Z.leb_le in H2. exists u. auto.
  - intros (u & I & C & H1 & H2). exists u. split; [apply find_elements_in; auto|].
    apply andb_true_iff. split; apply Z.leb_le; assumption.
Qed.

Lemma refs_to_remove_fst : forall m sp e, fst (refs_to_remove m sp e) = filter (fun s => negb (keep_ref m s)) sp.
Proof.
  induction sp as [|s sp IH]; intro e; cbn [refs_to_remove filter]; [reflexivity|].
  pose proof (ref_loop_keep s (find_elements m (r_src s) (r_ch s)) e) as K. fold (keep_ref m s) in K.
  destruct (ref_loop s (find_elements m (r_src s) (r_ch s)) e) as [k e']. cbn [fst] in K. subst k.
  specialize (IH e'). destruct (refs_to_remove m sp e') as [l e'']. cbn [fst] in *. subst l.
  destruct (keep_ref m s); reflexivity.
Qed.

Lemma remove_seg_app : forall l1 s l2, ~ In (r_id s) (map r_id l1) -> remove_seg (r_id s) (l1 ++ s :: l2) = Ok (l1 ++ l2).
Proof.
  induction l1 as [|x l1 IH]; intros s l2 N; cbn [app remove_seg].
  - rewrite Nat.eqb_refl. reflexivity.
  - destruct (Nat.eqb (r_id x) (r_id s)) eqn:E.
    + apply Nat.eqb_eq in E. exfalso. apply N. left. exact E.
    + rewrite IH by (intro; apply N; right; assumption). reflexivity.
Qed.
Lemma remove_all_app : forall p l2 l1, NoDup (map r_id (l1 ++ l2)) ->
  remove_all (filter (fun s => negb (p s)) l2) (l1 ++ l2) = Ok (l1 ++ filter p l2).
Proof.
  induction l2 as [|s l2 IH]; intros l1 ND; cbn [filter remove_all]; [reflexivity|].
  destruct (p s); cbn [negb remove_all].
  - replace (l1 ++ s :: l2) with ((l1 ++ [s]) ++ l2) in * by (rewrite <- app_assoc; reflexivity).
    rewrite IH by assumption. rewrite <- app_assoc. reflexivity.
  - rewrite map_app in ND. cbn [map] in ND. pose proof (NoDup_remove_2 _ _ _ ND) as N. apply NoDup_remove_1 in ND.
    rewrite remove_seg_app by (intro I; apply N; apply in_app_iff; left; exact I). cbn [rbind].
    apply IH. rewrite map_app. exact ND.
Qed.
Lemma remove_all_filter : forall p sp, NoDup (map r_id sp) -> remove_all (filter (fun s => negb (p s)) sp) sp = Ok (filter p sp).
Proof. intros p sp H. exact (remove_all_app p sp [] H). Qed.

Lemma filter_kept : forall (P : rseg -> Prop) p l, (forall s, p s = true <-> P s) -> kept P l (filter p l).
Proof.
  intros P p l H. induction l as [|s l IH]; cbn [filter]; [constructor|]. destruct (p s) eqn:E.
  - constructor; [apply H; exact E|exact IH].
  - constructor; [|exact IH]. intro Q. apply H in Q. congruence.
Qed.

Definition keep (m : list uem) (o : origin) : rseg -> bool :=
  match o with IsRef | IsGen => keep_ref m | _ => keep_hyp m end.

Lemma process_filter : forall m o sp, o <> IsOther -> NoDup (map r_id sp) ->
  exists e, process_speech m o sp = Ok (e, filter (keep m o) sp).
Proof.
  intros m o sp NO ND. unfold process_speech.
  pose proof (refs_to_remove_fst m sp 0) as R. destruct (refs_to_remove m sp 0) as [l e]. cbn [fst] in R. subst l.
  destruct o; [| | |contradiction].
  - exists e. rewrite remove_all_filter by assumption. reflexivity.
  - exists e. rewrite remove_all_filter by assumption. reflexivity.
  - exists 0%nat. unfold hyps_to_remove. change (fun s => negb (hyp_loop (Z.quot (r_start s + r_end s) 2) (find_elements m (r_src s) (r_ch s)))) with (fun s => negb (keep_hyp m s)).
    rewrite remove_all_filter by assumption. reflexivity.
Qed.

Lemma filter_filter_same : forall A (p : A -> bool) l, filter p (filter p l) = filter p l.
Proof. induction l as [|x l IH]; cbn [filter]; [reflexivity|]. destruct (p x) eqn:E; cbn [filter]; rewrite ?E, IH; reflexivity. Qed.
Lemma nodup_filter_ids : forall (p : rseg -> bool) l, NoDup (map r_id l) -> NoDup (map r_id (filter p l)).
Proof.
  induction l as [|x l IH]; intro H; cbn [filter map]; [constructor|]. cbn [map] in H. inversion H; subst.
  destruct (p x); [|auto]. cbn [map]. constructor; [|auto]. intro I. apply H2. apply in_map_iff in I as (y & E & I).
  apply filter_In in I as [I _]. apply in_map_iff. exists y. auto.
Qed.

(** * Two-level maps *)
Lemma massoc_splace : forall V (m : smap V) k v k', massoc m k = None ->
  massoc (splace m k v) k' = if str_eqb k k' then Some v else massoc m k'.
Proof.
  induction m as [|[q w] m IH]; intros k v k' N; cbn [splace massoc] in *; [reflexivity|].
  destruct (str_eqb q k) eqn:E; [discriminate|].
  destruct (str_leb k q); cbn [massoc].
  - destruct (str_eqb k k'); reflexivity.
  - rewrite IH by assumption. destruct (str_eqb q k') eqn:Q; [|reflexivity].
    apply str_eqb_spec in Q. subst. rewrite str_eqb_sym, E. reflexivity.
Qed.
Lemma massoc_sput : forall V (m : smap V) k v k', massoc (sput m k v) k' = if str_eqb k k' then Some v else massoc m k'.
Proof.
  intros V m k v k'. unfold sput. destruct (massoc m k) eqn:E; [apply massoc_mput|apply massoc_splace; exact E].
Qed.
Lemma pfind_pput : forall V (m : pmap V) f c v f' c', pfind (pput m f c v) f' c' =
  if str_eqb f f' && str_eqb c c' then Some v else pfind m f' c'.
Proof.
  intros V m f c v f' c'. unfold pfind, pput. rewrite massoc_sput. destruct (str_eqb f f') eqn:E; cbn [andb].
  - apply str_eqb_spec in E. subst f'. rewrite massoc_sput. destruct (str_eqb c c'); [reflexivity|].
    destruct (massoc m f); reflexivity.
  - reflexivity.
Qed.

Definition keys_ok {V} (m : pmap V) : Prop := NoDup (map fst m) /\ Forall (fun e => NoDup (map fst (snd e))) m.

Lemma massoc_none : forall V (m : smap V) k, massoc m k = None <-> ~ In k (map fst m).
Proof.
  induction m as [|[q w] m IH]; intro k; cbn [massoc map fst]; [intuition|].
  destruct (str_eqb q k) eqn:E.
  - apply str_eqb_spec in E. subst. split; [discriminate|]. intro H. exfalso. apply H. left. reflexivity.
  - rewrite IH. split.
    + intros N [->|I]; [rewrite str_eqb_refl in E; discriminate|contradiction].
    + intros N I. apply N. right. exact I.
Qed.
Lemma massoc_in : forall V (m : smap V) k v, NoDup (map fst m) -> (massoc m k = Some v <-> In (k, v) m).
Proof.
  induction m as [|[q w] m IH]; intros k v ND; cbn [massoc map fst In]; [split; [discriminate|intros []]|].
  cbn [map fst] in ND. inversion ND as [|? ? N1 N2]; subst.
  destruct (str_eqb q k) eqn:E.
  - apply str_eqb_spec in E. subst. split.
    + intro H. injection H as ->. left. reflexivity.
    + intros [H|H]; [congruence|]. exfalso. apply N1. apply in_map_iff. exists (k, v). auto.
  - rewrite IH by assumption. split; [auto|]. intros [H|H]; [|exact H]. injection H as -> ->. rewrite str_eqb_refl in E. discriminate.
Qed.
Lemma keys_mput : forall V (m : smap V) k v, massoc m k <> None -> map fst (mput m k v) = map fst m.
Proof.
  induction m as [|[q w] m IH]; intros k v H; cbn [mput massoc] in *; [contradiction|].
  destruct (str_eqb q k); cbn [map fst]; [reflexivity|]. rewrite IH by assumption. reflexivity.
Qed.
Lemma keys_splace : forall V (m : smap V) k v, Permutation (map fst (splace m k v)) (k :: map fst m).
Proof.
  induction m as [|[q w] m IH]; intros k v; cbn [splace map fst]; [reflexivity|].
  destruct (str_leb k q); cbn [map fst]; [reflexivity|]. rewrite IH. apply perm_swap.
Qed.
Lemma nodup_sput : forall V (m : smap V) k v, NoDup (map fst m) -> NoDup (map fst (sput m k v)).
Proof.
  intros V m k v H. unfold sput. destruct (massoc m k) eqn:E.
  - rewrite keys_mput by congruence. exact H.
  - apply (Permutation_NoDup (Permutation_sym (keys_splace _ m k v))). constructor; [|exact H]. apply massoc_none. exact E.
Qed.
Lemma in_mput : forall V (m : smap V) k v x, In x (mput m k v) -> In x m \/ snd x = v.
Proof.
  induction m as [|[q w] m IH]; intros k v x H; cbn [mput] in H.
  - destruct H as [<-|[]]. right. reflexivity.
  - destruct (str_eqb q k).
    + destruct H as [<-|H]; [right; reflexivity|left; right; exact H].
    + destruct H as [<-|H]; [left; left; reflexivity|]. apply IH in H as [H|H]; [left; right; exact H|right; exact H].
Qed.
Lemma in_splace : forall V (m : smap V) k v x, In x (splace m k v) -> In x m \/ snd x = v.
Proof.
  induction m as [|[q w] m IH]; intros k v x H; cbn [splace] in H.
  - destruct H as [<-|[]]. right. reflexivity.
  - destruct (str_leb k q).
    + destruct H as [<-|H]; [right; reflexivity|left; exact H].
    + destruct H as [<-|H]; [left; left; reflexivity|]. apply IH in H as [H|H]; [left; right; exact H|right; exact H].
Qed.
Lemma keys_pput : forall V (m : pmap V) f c v, keys_ok m -> keys_ok (pput m f c v).
Proof.
  intros V m f c v [A B]. unfold pput. set (n := sput _ c v).
  assert (N : NoDup (map fst n)).
  { apply nodup_sput. destruct (massoc m f) eqn:E; [|constructor]. apply massoc_in in E; [|exact A].
    rewrite Forall_forall in B. apply (B _ E). }
  split; [apply nodup_sput; exact A|]. apply Forall_forall. intros x I. rewrite Forall_forall in B.
  assert (D : In x m \/ snd x = n) by (unfold sput in I; destruct (massoc m f); [eapply in_mput|eapply in_splace]; exact I).
  destruct D as [D| ->]; [apply B; exact D|exact N].
Qed.

(** * Sorting and pairs *)
Lemma zinsert_perm : forall x l, Permutation (zinsert x l) (x :: l).
Proof.
  induction l as [|y l IH]; cbn [zinsert]; [reflexivity|]. destruct (x <=? y); [reflexivity|]. rewrite IH. apply perm_swap.
Qed.
Lemma zsort_perm : forall l, Permutation (zsort l) l.
Proof. induction l as [|x l IH]; cbn [zsort fold_right]; [reflexivity|]. fold (zsort l). rewrite zinsert_perm. apply perm_skip. exact IH. Qed.
Lemma zinsert_sorted : forall x l, StronglySorted Z.le l -> StronglySorted Z.le (zinsert x l).
Proof.
  induction l as [|y l IH]; intro H; cbn [zinsert]; [repeat constructor|]. inversion H as [|? ? H1 H2]; subst.
  destruct (x <=? y) eqn:E.
  - apply Z.leb_le in E. constructor; [exact H|]. constructor; [exact E|]. eapply Forall_impl; [|exact H2]. cbn beta. intros; lia.
  - apply Z.leb_gt in E. constructor; [apply IH; exact H1|].
    apply Forall_forall. intros z I. apply (Permutation_in _ (zinsert_perm x l)) in I. destruct I as [<-|I]; [lia|].
    rewrite Forall_forall in H2. apply H2. exact I.
Qed.
Lemma zsort_sorted : forall l, StronglySorted Z.le (zsort l).
Proof. induction l as [|x l IH]; cbn [zsort fold_right]; [constructor|]. apply zinsert_sorted. exact IH. Qed.

Fixpoint pairs_of (l : list Z) : list (Z * Z) :=
  match l with b :: e :: r => (b, e) :: pairs_of r | _ => [] end.

(** Parity of the number of times not after [t]. *)
Fixpoint par (t : Z) (l : list Z) : bool :=
  match l with [] => false | x :: r => xorb (x <=? t) (par t r) end.
Lemma par_app : forall t l l', par t (l ++ l') = xorb (par t l) (par t l').
Proof. induction l as [|x l IH]; intro l'; cbn [app par]; [destruct (par t l'); reflexivity|]. rewrite IH. symmetry. apply xorb_assoc_reverse. Qed.
Lemma par_perm : forall t l l', Permutation l l' -> par t l = par t l'.
Proof.
  intros t l l' H. induction H; cbn [par]; try congruence.
  destruct (y <=? t), (x <=? t), (par t l); reflexivity.
Qed.
Definition inb (t : Z) (i : Z * Z) : bool := (fst i <=? t) && (t <? snd i).

Lemma even_ind2 : forall (P : list Z -> Prop), P [] -> (forall a b l, P l -> P (a :: b :: l)) ->
  forall l, Nat.even (length l) = true -> P l.
Proof.
  intros P H0 H2. assert (G : forall n l, (length l <= n)%nat -> Nat.even (length l) = true -> P l).
  { induction n as [|n IH]; intros l L E.
    - destruct l; [exact H0|cbn [length] in L; lia].
    - destruct l as [|a [|b l]]; [exact H0|discriminate|]. apply H2. apply IH; [cbn [length] in L; lia|exact E]. }
  intros l E. apply (G (length l)); [lia|exact E].
Qed.

Lemma par_pairs : forall t l, Nat.even (length l) = true -> StronglySorted Z.le l -> par t l = existsb (inb t) (pairs_of l).
Proof.
  intros t l E. revert l E. apply (even_ind2 (fun l => StronglySorted Z.le l -> par t l = existsb (inb t) (pairs_of l))).
  - reflexivity.
  - intros a b l IH S. inversion S as [|? ? S1 F1]; subst. inversion S1 as [|? ? S2 F2]; subst. inversion F1 as [|? ? AB F3]; subst.
    cbn [par pairs_of existsb]. rewrite IH by assumption. unfold inb at 2. cbn [fst snd].
    destruct (Z.leb_spec a t) as [L1|L1]; destruct (Z.leb_spec b t) as [L2|L2]; destruct (Z.ltb_spec t b) as [L3|L3]; try lia; cbn [andb orb xorb negb].
    + destruct (existsb (inb t) (pairs_of l)); reflexivity.
    + assert (N : existsb (inb t) (pairs_of l) = false).
      { rewrite <- IH by assumption. clear - F2 L3. induction l as [|x l IH]; [reflexivity|]. inversion F2; subst. cbn [par].
        rewrite IH by assumption. replace (x <=? t) with false by (symmetry; apply Z.leb_gt; lia). reflexivity. }
      rewrite N. reflexivity.
    + destruct (existsb (inb t) (pairs_of l)); reflexivity.
Qed.

(** Disjoint intervals. *)
Definition ends (i : Z * Z) : list Z := [fst i; snd i].
Definition disj (i j : Z * Z) : Prop := snd i <= fst j \/ snd j <= fst i.
Lemma par_intervals : forall t l, Forall (fun i => fst i < snd i) l -> ForallOrdPairs disj l ->
  par t (flat_map ends l) = existsb (inb t) l.
Proof.
  induction l as [|i l IH]; intros F D; [reflexivity|]. inversion F as [|? ? F1 F2]; subst. inversion D as [|? ? D1 D2]; subst.
  cbn [flat_map ends app par existsb]. rewrite IH by assumption. unfold inb at 2.
  destruct (Z.leb_spec (fst i) t) as [L1|L1]; destruct (Z.leb_spec (snd i) t) as [L2|L2]; destruct (Z.ltb_spec t (snd i)) as [L3|L3]; try lia; cbn [andb orb xorb negb].
  - destruct (existsb (inb t) l); reflexivity.
  - assert (N : existsb (inb t) l = false).
    { apply Bool.not_true_iff_false. intro H. apply existsb_exists in H as (j & I & H). unfold inb in H.
      apply andb_prop in H as [H1 H2]. apply Z.leb_le in H1. apply Z.ltb_lt in H2.
      rewrite Forall_forall in D1, F2. specialize (D1 j I). destruct D1; lia. }
    rewrite N. reflexivity.
  - destruct (existsb (inb t) l); reflexivity.
Qed.

(** * The walk *)
Definition real (borders : list Z) (p : Z * Z) : bool := negb (existsb (Z.eqb (fst p)) borders) && negb (fst p =? snd p).
Definition to_gap (f c : str) (p : Z * Z) : gap := {| k_src := f; k_ch := c; k_from := fst p; k_to := snd p |}.
Lemma walk_spec : forall f c b l, Nat.even (length l) = true ->
  walk f c b l = Ok (map (to_gap f c) (filter (real b) (pairs_of l))).
Proof.
  intros f c b l E. revert l E. apply even_ind2.
  - reflexivity.
  - intros x y l IH. cbn [walk pairs_of filter]. rewrite IH. cbn [rbind]. change (real b (x, y)) with (negb (existsb (Z.eqb x) b) && negb (x =? y)).
    destruct (existsb (Z.eqb x) b); cbn [negb andb]; [reflexivity|]. destruct (x =? y); reflexivity.
Qed.

Lemma walk_files_spec : forall b (m : pmap (list Z)), keys_ok m ->
  (forall f c l, pfind m f c = Some l -> Nat.even (length l) = true) ->
  exists gs, walk_files b m = Ok gs /\
    forall k, In k gs <-> exists l, pfind m (k_src k) (k_ch k) = Some l /\
       In (k_from k, k_to k) (filter (real (pget [] b (k_src k) (k_ch k))) (pairs_of (zsort l))).
Proof.
  intros b m [K1 K2] EV.
  assert (CH : forall f (n : smap (list Z)), (forall c l, In (c, l) n -> Nat.even (length l) = true) ->
    exists gs, walk_channels f b n = Ok gs /\ forall k, In k gs <-> k_src k = f /\ exists l, In (k_ch k, l) n /\
       In (k_from k, k_to k) (filter (real (pget [] b (k_src k) (k_ch k))) (pairs_of (zsort l)))).
  { intros f. induction n as [|[c l] n IH]; intro E; cbn [walk_channels].
    - exists []. split; [reflexivity|]. intro k. split; [intros []|intros (_ & l & [] & _)].
    - destruct IH as (gs & W & S); [intros; eapply E; right; eassumption|].
      rewrite walk_spec.
      2:{ rewrite (Permutation_length (zsort_perm l)). eapply E. left. reflexivity. }
      cbn [rbind]. rewrite W. cbn [rbind]. eexists. split; [reflexivity|]. intro k. rewrite in_app_iff, S, in_map_iff. split.
      + intros [(p & <- & I)|(F & l' & I & J)].
        * cbn [to_gap k_src k_ch k_from k_to]. split; [reflexivity|]. exists l. split; [left; reflexivity|]. destruct p. exact I.
        * split; [exact F|]. exists l'. split; [right; exact I|exact J].
      + intros (F & l' & [I|I] & J).
        * injection I as C L. subst l'. left. exists (k_from k, k_to k). rewrite F, <- C in J. split; [|exact J].
          destruct k; cbn in *; subst; reflexivity.
        * right. split; [exact F|]. exists l'. auto. }
  assert (FI : forall part, (forall e, In e part -> In e m) -> exists gs, walk_files b part = Ok gs /\
    forall k, In k gs <-> exists n, In (k_src k, n) part /\ exists l, In (k_ch k, l) n /\
       In (k_from k, k_to k) (filter (real (pget [] b (k_src k) (k_ch k))) (pairs_of (zsort l)))).
  { induction part as [|[f n] part IH]; intro SUB; cbn [walk_files].
    - exists []. split; [reflexivity|]. intro k. split; [intros []|intros (n & [] & _)].
    - destruct IH as (gs & W & S); [intros; apply SUB; right; assumption|].
      destruct (CH f n) as (gs1 & W1 & S1).
      { intros c l I. apply (EV f c l). unfold pfind.
        assert (M : massoc m f = Some n) by (apply massoc_in; [exact K1|apply SUB; left; reflexivity]).
        rewrite M. apply massoc_in; [|exact I]. rewrite Forall_forall in K2. apply (K2 (f, n)). apply SUB. left. reflexivity. }
      rewrite W1. cbn [rbind]. rewrite W. cbn [rbind]. eexists. split; [reflexivity|]. intro k. rewrite in_app_iff, S, S1. split.
      + intros [(F & l & I & J)|(n' & I & J)].
        * exists n. split; [left; congruence|]. exists l. auto.
        * exists n'. split; [right; exact I|exact J].
      + intros (n' & [I|I] & J).
        * injection I as -> ->. left. split; [reflexivity|exact J].
        * right. exists n'. auto. }
  destruct (FI m (fun _ H => H)) as (gs & W & S). exists gs. split; [exact W|]. intro k. rewrite S. split.
  - intros (n & I & l & J & Q). exists l. split; [|exact Q]. unfold pfind.
    assert (M : massoc m (k_src k) = Some n) by (apply massoc_in; assumption). rewrite M.
    apply massoc_in; [|exact J]. rewrite Forall_forall in K2. apply (K2 _ I).
  - intros (l & P & Q). unfold pfind in P. destruct (massoc m (k_src k)) as [n|] eqn:M; [|discriminate].
    apply massoc_in in M; [|exact K1]. exists n. split; [exact M|]. exists l. split; [|exact Q].
    apply massoc_in in P; [exact P|]. rewrite Forall_forall in K2. apply (K2 _ M).
Qed.

(** * The reports *)
Lemma bad_border_spec : forall s u, u_from u < u_to u -> r_start s < r_end s -> (bad_border s u = true <-> crosses s u).
Proof.
  intros s u H1 H2. unfold bad_border, crosses. rewrite !orb_true_iff, !andb_true_iff, !Z.ltb_lt. lia.
Qed.
Lemma ref_loop_errs : forall s els e, Forall (fun u => u_from u < u_to u) els -> r_start s < r_end s ->
  (e <= snd (ref_loop s els e))%nat /\
  (snd (ref_loop s els e) = e -> fst (ref_loop s els e) = false -> forall u, In u els -> ~ crosses s u) /\
  (e < snd (ref_loop s els e) -> exists u, In u els /\ crosses s u)%nat.
Proof.
  induction els as [|u els IH]; intros e F L; cbn [ref_loop].
  - cbn [fst snd]. split; [lia|]. split; [intros _ _ u []|lia].
  - inversion F as [|? ? F1 F2]; subst. destruct ((u_from u <=? r_start s) && (r_end s <=? u_to u)) eqn:E.
    + cbn [fst snd]. split; [lia|]. split; [discriminate|lia].
    + pose proof (bad_border_spec s u F1 L) as B. destruct (bad_border s u).
      * destruct (IH (S e) F2 L) as (A1 & A2 & A3). split; [lia|]. split; [intros; lia|]. intros _. exists u. split; [left; reflexivity|]. apply B. reflexivity.
      * destruct (IH e F2 L) as (A1 & A2 & A3). split; [exact A1|]. split.
        -- intros H K v [<-|I]; [intro C; apply B in C; discriminate|apply A2; assumption].
        -- intro H. destruct (A3 H) as (v & I & C). exists v. split; [right; exact I|exact C].
Qed.
Lemma refs_errs : forall m sp e, Forall (fun u => u_from u < u_to u) m -> Forall (fun s => r_start s < r_end s) sp ->
  (e <= snd (refs_to_remove m sp e))%nat /\
  (snd (refs_to_remove m sp e) = e -> forall s u, In s sp -> keep_ref m s = false -> In u m -> concerns u s -> ~ crosses s u) /\
  (e < snd (refs_to_remove m sp e) -> exists s u, In s sp /\ In u m /\ concerns u s /\ crosses s u)%nat.
Proof.
  induction sp as [|s sp IH]; intros e F G; cbn [refs_to_remove].
  - cbn [snd]. split; [lia|]. split; [intros _ s u []|lia].
  - inversion G as [|? ? G1 G2]; subst.
    assert (FE : Forall (fun u => u_from u < u_to u) (find_elements m (r_src s) (r_ch s))).
    { apply Forall_forall. intros u I. apply find_elements_in in I as [I _]. rewrite Forall_forall in F. apply F. exact I. }
    destruct (ref_loop_errs s (find_elements m (r_src s) (r_ch s)) e FE G1) as (A1 & A2 & A3).
    pose proof (ref_loop_keep s (find_elements m (r_src s) (r_ch s)) e) as K. fold (keep_ref m s) in K.
    destruct (ref_loop s (find_elements m (r_src s) (r_ch s)) e) as [k e1]. cbn [fst snd] in *. subst k.
    destruct (IH e1 F G2) as (B1 & B2 & B3). destruct (refs_to_remove m sp e1) as [l e2]. cbn [snd] in *.
    split; [lia|]. split.
    + intros Q x u [<-|I] KE IU C.
      * apply A2; [lia|exact KE|]. apply find_elements_in. auto.
      * apply B2; [lia|exact I|exact KE|exact IU|exact C].
    + intro Q. destruct (le_lt_dec e1 e) as [D|D].
      * destruct B3 as (x & u & I & R); [lia|]. exists x, u. split; [right; exact I|exact R].
      * destruct A3 as (u & I & C); [lia|]. apply find_elements_in in I as [I J]. exists s, u. split; [left; reflexivity|]. auto.
Qed.
