(** Proofs about Chan_Model: the channels of the two files. *)
From Coq Require Import List NArith ZArith Arith Bool Lia.
From Verif Require Import Base Chan_Model Chan_Spec Chan_Proofs Chan_Proofs2 Chan_Proofs3.
Import ListNotations.
Local Open Scope res_scope.
Local Open Scope Z_scope.

Lemma change_at_run {A} (same : A -> bool) l rest : forall x, Forall (fun a => same a = true) l ->
  match rest with a :: _ => same a = false | [] => True end ->
  change_at same x (l ++ rest) = match rest with [] => None | _ => Some (x + Z.of_nat (length l) - 1) end.
Proof.
  induction l as [|a l IH]; intros x F D; cbn [app change_at length].
  - destruct rest as [|b rest]; [reflexivity|]. cbn [change_at]. rewrite D. f_equal. lia.
  - inversion F; subst. rewrite H1. rewrite IH; auto. destruct rest; [reflexivity|]. f_equal. lia.
Qed.
Lemma locate_words_run hp l rest : l <> [] ->
  (forall k, hd_error l = Some k -> Forall (fun w => same_word k w = true) l /\ match rest with w :: _ => same_word k w = false | [] => True end) ->
  locate_words (hp ++ l ++ rest) (Z.of_nat (length hp) + 1) = Z.of_nat (length hp) + Z.of_nat (length l).
Proof.
  intros NE HK. unfold locate_words. destruct l as [|k l]; [contradiction|]. destruct (HK k eq_refl) as [F D].
  destruct (Z.eqb_spec (Z.of_nat (length hp) + 1) (Z.of_nat (length (hp ++ (k :: l) ++ rest)))) as [E|E].
  - rewrite !app_length in E. cbn [length] in *. lia.
  - replace (Z.to_nat (Z.of_nat (length hp) + 1 - 1)) with (length hp) by lia.
    rewrite skipn_app, Nat.sub_diag, skipn_all. cbn [skipn app].
    change (k :: l ++ rest) with ((k :: l) ++ rest). rewrite change_at_run by auto.
    destruct rest; [rewrite !app_length; cbn [length]; lia|lia].
Qed.
Lemma locate_words_end hp : locate_words hp (Z.of_nat (length hp) + 1) = Z.of_nat (length hp).
Proof.
  unfold locate_words. rewrite (proj2 (Z.eqb_neq _ _)) by lia.
  replace (Z.to_nat (Z.of_nat (length hp) + 1 - 1)) with (length hp) by lia. rewrite skipn_all. reflexivity.
Qed.
Lemma locate_segs_run sp_ l rest : l <> [] ->
  (forall k, hd_error l = Some k -> Forall (fun s => same_seg k s = true) l /\ match rest with s :: _ => same_seg k s = false | [] => True end) ->
  locate_segs (sp_ ++ l ++ rest) (Z.of_nat (length sp_)) =
  match rest with [] => Z.of_nat (length (sp_ ++ l ++ rest)) | _ => Z.of_nat (length sp_) + Z.of_nat (length l) - 1 end.
Proof.
  intros NE HK. unfold locate_segs. destruct l as [|k l]; [contradiction|]. destruct (HK k eq_refl) as [F D].
  rewrite (proj2 (Z.eqb_neq _ _)) by (rewrite !app_length; cbn [length]; lia).
  rewrite Nat2Z.id, skipn_app, Nat.sub_diag, skipn_all. cbn [skipn app].
  change (k :: l ++ rest) with ((k :: l) ++ rest). rewrite change_at_run by auto.
  destruct rest; reflexivity.
Qed.

(** What the code does with a channel. *)
Definition channel_done (o : opts) (hyp : list word) (stm : list seg) (p : list seg * list word) (us : list unit) (c : channel) : Prop :=
  Units (snd p) us /\ flags c = word_flags o (snd p) (fst p) /\
  exists gs lf, Given (used o (snd p)) (fst p) us gs lf /\ Forall2 (shows hyp stm) (cuts c) gs.

Lemma align_one_spec o sp_ segs sq hp us ms hq r_end hyp stm :
  stm = sp_ ++ segs ++ sq -> hyp = hp ++ List.concat ms ++ hq -> Forall well_formed us -> Forall2 marked us ms ->
  (r_end = Z.of_nat (length sp_) + Z.of_nat (length segs) - 1 \/ (sq = [] /\ r_end = Z.of_nat (length stm))) ->
  exists c, align_one_channel o hyp stm (Z.of_nat (length hp) + 1) (Z.of_nat (length hp) + Z.of_nat (length (List.concat ms)))
              (Z.of_nat (length sp_)) r_end = Ok c /\
    channel_done o (map the_word hyp) stm (segs, flat_map spell us) us c.
Proof.
  intros Es Eh W M Hr. unfold align_one_channel.
  assert (Ws : map the_word (words_of hyp (Z.of_nat (length hp) + 1) (Z.of_nat (length hp) + Z.of_nat (length (List.concat ms)))) = flat_map spell us).
  { rewrite Eh, words_of_at by reflexivity. apply marked_words, M. }
  assert (Ss : segs_of stm (Z.of_nat (length sp_)) r_end = segs).
  { unfold segs_of. rewrite Es, Nat2Z.id, skipn_app, Nat.sub_diag, skipn_all. cbn [skipn app].
    destruct Hr as [-> | [-> ->]].
    - replace (Z.to_nat _) with (length segs) by lia. rewrite firstn_app, Nat.sub_diag, firstn_all. cbn [firstn]. apply app_nil_r.
    - rewrite app_nil_r. apply firstn_all2. rewrite Es, !app_length. lia. }
  rewrite Ws, Ss.
  replace (Z.of_nat (length hp) + 1 - 1) with (Z.of_nat (length hp)) by lia.
  destruct (channel_loop_spec o (flat_map spell us) (Z.of_nat (length hp) + Z.of_nat (length (List.concat ms))) r_end segs sp_ sq hp hq us ms hyp stm
    (Z.of_nat (length sp_)) (Z.of_nat (length hp) + 1) (Z.of_nat (length hp)) Es Eh W M eq_refl eq_refl eq_refl eq_refl Hr) as (gs & lf & l & HG & HC & HS).
  rewrite HC. cbn [rbind]. eexists. split; [reflexivity|].
  split; [split; auto|]. cbn [flags cuts fst snd]. split; [reflexivity|]. exists gs, lf. split; assumption.
Qed.

(** Runs as segments of the files. *)
Definition join {K A} (rs : list (K * list A)) : list A := List.concat (map snd rs).
Lemma runs_join {A K} (key : A -> K) l rs : Runs key l rs -> l = join rs.
Proof. induction 1 as [|k l rest rs NE F R IH D]; [reflexivity|]. unfold join in *. cbn [map List.concat snd]. rewrite <- IH. reflexivity. Qed.

Lemma same_word_iff k w : same_word k w = true <-> word_key k = word_key w.
Proof.
  unfold same_word, word_key. rewrite andb_true_iff, !str_eqb_iff. split; [intros [-> ->]; reflexivity|intro E; inversion E; auto].
Qed.
Lemma same_seg_iff k s : same_seg k s = true <-> seg_key k = seg_key s.
Proof.
  unfold same_seg, seg_key. rewrite andb_true_iff, !str_eqb_iff. split; [intros [-> ->]; reflexivity|intro E; inversion E; auto].
Qed.
Lemma not_true b : b <> true -> b = false.
Proof. destruct b; congruence. Qed.

(** The next run of the reference. *)
Lemma next_segs k s R : Runs seg_key (join ((k, s) :: R)) ((k, s) :: R) -> forall sp_,
  s <> [] /\ Forall (fun x => seg_key x = k) s /\ Runs seg_key (join R) R /\
  locate_segs (sp_ ++ s ++ join R) (Z.of_nat (length sp_)) =
    match R with [] => Z.of_nat (length (sp_ ++ s ++ join R)) | _ => Z.of_nat (length sp_) + Z.of_nat (length s) - 1 end.
Proof.
  intros HR sp_. inversion HR as [|k0 l0 rest0 rs0 NE F RR D]; subst.
  assert (rest0 = join R) by (apply runs_join in RR; exact RR). subst rest0.
  split; [exact NE|]. split; [exact F|]. split; [exact RR|].
  rewrite locate_segs_run; [|exact NE|].
  - inversion RR as [|k' l' rest' rs' NE' F' RR' D']; subst; [reflexivity|].
    unfold join. cbn [map List.concat snd]. destruct l' as [|a l']; [contradiction|]. reflexivity.
  - intros x Hx. destruct s as [|y s]; [contradiction|]. cbn [hd_error] in Hx. injection Hx as ->.
    pose proof F as F0. rewrite Forall_forall in F0. pose proof (F0 x (or_introl eq_refl)) as Kx. split.
    + rewrite Forall_forall. intros z Hz. apply same_seg_iff. rewrite Kx. symmetry. apply F0. exact Hz.
    + inversion RR as [|k' l' rest' rs' NE' F' RR' D']; subst R; [exact I|].
      unfold join. cbn [map List.concat snd]. destruct l' as [|a l']; [contradiction|]. cbn [app].
      apply not_true. rewrite same_seg_iff. pose proof (Forall_inv F') as Ka. intro E. apply D. congruence.
Qed.
(** The next run of the hypothesis, flags included. *)
Lemma next_words k w H us uss : Runs word_key (join ((k, w) :: H)) ((k, w) :: H) -> Units w us -> Forall2 (fun r u => Units (snd r) u) H uss ->
  forall hp, exists ms, mark_alternates false (join ((k, w) :: H)) = List.concat ms ++ mark_alternates false (join H) /\
    Forall2 marked us ms /\ w <> [] /\ Runs word_key (join H) H /\
    (exists x q, List.concat ms ++ mark_alternates false (join H) = x :: q /\ word_key x = k) /\
    locate_words (hp ++ List.concat ms ++ mark_alternates false (join H)) (Z.of_nat (length hp) + 1) = Z.of_nat (length hp) + Z.of_nat (length (List.concat ms)).
Proof.
  intros HR [Ew Wu] HU hp. inversion HR as [|k0 l0 rest0 rs0 NE F RR D]; subst.
  assert (rest0 = join H) by (apply runs_join in RR; exact RR). subst rest0.
  change (join ((k, flat_map spell us) :: H)) with (flat_map spell us ++ join H).
  destruct (mark_units us Wu (join H)) as (ms & -> & M). exists ms.
  assert (MW : map the_word (List.concat ms) = flat_map spell us) by (apply marked_words, M).
  assert (FM : Forall (fun x => word_key (the_word x) = k) (List.concat ms)).
  { apply Forall_map with (f := the_word) (P := fun x => word_key x = k). rewrite MW. exact F. }
  assert (NM : List.concat ms <> []) by (intro E; rewrite E in MW; cbn [map] in MW; congruence).
  split; [reflexivity|]. split; [exact M|]. split; [exact NE|]. split; [exact RR|]. split.
  { destruct (List.concat ms) as [|x q]; [contradiction|]. exists x, (q ++ mark_alternates false (join H)). split; [reflexivity|]. inversion FM; assumption. }
  apply locate_words_run; [exact NM|].
  intros x Hx. destruct (List.concat ms) as [|y q]; [contradiction|]. cbn [hd_error] in Hx. injection Hx as ->.
  pose proof FM as F0. rewrite Forall_forall in F0. pose proof (F0 x (or_introl eq_refl)) as Kx. split.
  - rewrite Forall_forall. intros z Hz. apply same_word_iff. rewrite Kx. symmetry. apply F0. exact Hz.
  - inversion RR as [|k' l' rest' rs' NE' F' RR' D']; subst H; [exact I|].
    unfold join. cbn [map List.concat snd]. destruct l' as [|a l']; [contradiction|]. cbn [app mark_alternates].
    apply not_true. rewrite same_word_iff. cbn [the_word]. pose proof (Forall_inv F') as Ka. intro E. apply D. congruence.
Qed.

Lemma units_nonempty us : flat_map spell us = [] -> us = [].
Proof. destruct us as [|[w|b body e] us]; [reflexivity| |]; intro E; discriminate E. Qed.

(** Shift of the pairing to units. *)
Inductive done_all (o : opts) (hyp : list word) (stm : list seg) : list (list seg * list word) -> list channel -> Prop :=
| d_nil : done_all o hyp stm [] []
| d_cons p us P c cs : channel_done o hyp stm p us c -> done_all o hyp stm P cs -> done_all o hyp stm (p :: P) (c :: cs).

(** The pairing with what is left of the hypothesis. *)
Inductive PairL : list (str * str * list seg) -> list (str * str * list word) -> list (list seg * list word) -> list (str * str * list word) -> Prop :=
| l_nil H : PairL [] H [] H
| l_same k s w R H P H' : PairL R H P H' -> PairL ((k, s) :: R) ((k, w) :: H) ((s, w) :: P) H'
| l_none k s R H P H' : match H with (k', _) :: _ => k' <> k | [] => True end ->
    PairL R H P H' -> PairL ((k, s) :: R) H ((s, []) :: P) H'.
Definition outcome (o : opts) (hyp : list word) (stm : list seg) P (H' : list (str * str * list word)) (r : res (option (list channel))) : Prop :=
  match H' with
  | [] => exists cs, r = Ok (Some cs) /\ done_all o hyp stm P cs
  | _ => r = if feedback o then Undef else Ok None
  end.
Lemma loop_tail o hw (n num he rend : Z) f hyp stm p us c P H' : channel_done o hw stm p us c ->
  (he + 1 <= n \/ rend + 1 < num -> outcome o hw stm P H' (channels_loop f o hyp stm (he + 1) (rend + 1))) ->
  (n <= he -> num <= rend + 1 -> P = [] /\ H' = []) ->
  outcome o hw stm (p :: P) H' (if (he + 1 <=? n) || (rend + 1 <? num) then
        let* r := channels_loop f o hyp stm (he + 1) (rend + 1) in Ok (option_map (cons c) r)
      else Ok (Some [c])).
Proof.
  intros CD A B.
  assert (G : outcome o hw stm P H' (channels_loop f o hyp stm (he + 1) (rend + 1)) ->
              outcome o hw stm (p :: P) H' (let* r := channels_loop f o hyp stm (he + 1) (rend + 1) in Ok (option_map (cons c) r))).
  { unfold outcome. destruct H'.
    - intros (cs & -> & DA). exists (c :: cs). split; [reflexivity|]. econstructor; eauto.
    - intros ->. destruct (feedback o); reflexivity. }
  destruct (he + 1 <=? n) eqn:E1; cbn [orb].
  - apply Z.leb_le in E1. apply G, A. auto.
  - apply Z.leb_gt in E1. destruct (rend + 1 <? num) eqn:E2.
    + apply Z.ltb_lt in E2. apply G, A. auto.
    + apply Z.ltb_ge in E2. destruct B as [-> ->]; [lia|lia|]. exists [c]. split; [reflexivity|]. econstructor; [exact CD|constructor].
Qed.
Lemma mark_length p l : length (mark_alternates p l) = length l.
Proof. rewrite <- (mark_words p l) at 2. rewrite map_length. reflexivity. Qed.
Lemma runs_nonempty {A K} (key : A -> K) l r R : Runs key l (r :: R) -> (1 <= length l)%nat.
Proof. inversion 1; subst. rewrite app_length. destruct l0; [contradiction|cbn [length]; lia]. Qed.
(** More hypothesis than reference. *)
Lemma too_much o fuel hyp stm hs ss P h H' hw : (0 < fuel)%nat -> Z.of_nat (length stm) < ss -> hs <= Z.of_nat (length hyp) ->
  outcome o hw stm P (h :: H') (channels_loop fuel o hyp stm hs ss).
Proof.
  intros F A B. destruct fuel as [|f]; [lia|]. unfold outcome. cbn [channels_loop].
  assert (S : sg stm ss = Undef).
  { unfold sg. rewrite (proj2 (nth_error_None _ _)); [reflexivity|]. lia. }
  rewrite S. destruct (feedback o); [reflexivity|]. cbn [rbind].
  rewrite (proj2 (Z.ltb_ge _ _)) by lia. rewrite (proj2 (Z.ltb_lt _ _)) by lia. reflexivity.
Qed.

Lemma channels_spec o : forall R H P H', PairL R H P H' -> R <> [] ->
  Runs seg_key (join R) R -> Runs word_key (join H) H -> forall uss, Forall2 (fun r u => Units (snd r) u) H uss ->
  forall fuel sp_ hp hyp stm, (length R < fuel)%nat -> stm = sp_ ++ join R -> hyp = hp ++ mark_alternates false (join H) ->
  outcome o (map the_word hyp) stm P H' (channels_loop fuel o hyp stm (Z.of_nat (length hp) + 1) (Z.of_nat (length sp_))).
Proof.
  induction 1 as [H|k s w R H P H' PP IH|k s R H P H' D PP IH]; intros NR RR RH uss HU fuel sp_ hp hyp stm L Es Eh; [contradiction| |].
  - (* the same channel *)
    destruct fuel as [|fuel]; [lia|]. inversion HU as [|rr us HH uss' Hus HUs]; subst rr HH uss.
    destruct (next_segs _ _ _ RR sp_) as (NEs & Fs & RR' & LS).
    destruct (next_words _ _ _ us uss' RH Hus HUs hp) as (ms & EM & M & NEw & RH' & (x & q & Ex & Kx) & LW).
    cbn [snd] in Hus. destruct Hus as [Ew Wu].
    change (join ((k, s) :: R)) with (s ++ join R) in Es.
    rewrite EM in Eh.
    cbn [channels_loop].
    assert (HN : (Z.of_nat (length hyp) <? Z.of_nat (length hp) + 1) = false).
    { apply Z.ltb_ge. rewrite Eh, Ex, app_length. cbn [length]. lia. }
    assert (HNum : (Z.of_nat (length stm) <? Z.of_nat (length sp_)) = false).
    { apply Z.ltb_ge. rewrite Es, app_length. lia. }
    assert (Hsg : exists y, sg stm (Z.of_nat (length sp_)) = Ok y /\ seg_key y = k).
    { destruct s as [|y s']; [contradiction|]. exists y. split; [|inversion Fs; assumption].
      unfold sg. rewrite Es, Nat2Z.id, nth_error_app2, Nat.sub_diag by lia. reflexivity. }
    destruct Hsg as (y & Hy & Ky).
    assert (Hwd : wd hyp (Z.of_nat (length hp) + 1) = Ok x) by (rewrite Eh, Ex; apply wd_at; reflexivity).
    assert (Hkey : str_eqb (conv x) (file y) && str_eqb (turn x) (chan y) = true).
    { rewrite andb_true_iff, !str_eqb_iff. unfold word_key in Kx. unfold seg_key in Ky. rewrite <- Ky in Kx. inversion Kx. auto. }
    set (fbk := if feedback o then sg stm (Z.of_nat (length sp_)) else _).
    assert (Hf : exists z, fbk = Ok z) by (subst fbk; destruct (feedback o); [rewrite Hy|]; eauto).
    destruct Hf as (z & Hf). rewrite Hf. cbn [rbind]. clear fbk Hf.
    rewrite HN, HNum, Hwd. cbn [rbind]. rewrite Hy. cbn [rbind]. rewrite Hkey. cbn [rbind].
    rewrite <- Eh in LW. rewrite <- Es in LS. rewrite LW, LS.
    set (rend := match R with [] => _ | _ => _ end).
    assert (Hr : rend = Z.of_nat (length sp_) + Z.of_nat (length s) - 1 \/ (join R = [] /\ rend = Z.of_nat (length stm))).
    { subst rend. destruct R; [right|left]; auto. }
    destruct (align_one_spec o sp_ s (join R) hp us ms _ rend hyp stm Es Eh Wu M Hr) as (c & HC & CD).
    rewrite HC. cbn [rbind].
    assert (Hlen : Z.of_nat (length hp) + Z.of_nat (length (List.concat ms)) + 1 = Z.of_nat (length (hp ++ List.concat ms)) + 1) by (rewrite app_length; lia).
    assert (HW : snd (s, w) = w /\ fst (s, w) = s) by auto.
    destruct R as [|r1 R].
    + (* the last channel *)
      inversion PP; subst H0 P H'. rewrite <- Ew in CD. apply loop_tail with (us := us); [exact CD| |].
      * intros A. destruct H as [|h H'].
        -- exfalso. rewrite Eh in A. cbn [mark_alternates join map List.concat] in A. rewrite app_nil_r, app_length in A. subst rend. lia.
        -- apply too_much; [cbn [length] in L; lia|subst rend; lia|].
           rewrite Eh, !app_length. pose proof (runs_nonempty _ _ _ _ RH') as NJ.
           rewrite mark_length. lia.
      * intros A B. split; [reflexivity|]. destruct H as [|h H']; [reflexivity|]. exfalso.
        rewrite Eh, !app_length, mark_length in A. pose proof (runs_nonempty _ _ _ _ RH') as NJ. lia.
    + rewrite <- Ew in CD. apply loop_tail with (us := us); [exact CD| |].
      * intros _. rewrite Hlen. replace (rend + 1) with (Z.of_nat (length (sp_ ++ s))) by (subst rend; rewrite app_length; lia).
        apply (IH ltac:(discriminate) RR' RH' uss' HUs).
        { cbn [length] in *. lia. }
        { rewrite Es, app_assoc. reflexivity. }
        { rewrite Eh, app_assoc. reflexivity. }
      * intros _ B. exfalso. subst rend. rewrite Es, !app_length in B.
        destruct r1 as [k1 s1]. destruct (next_segs _ _ _ RR' sp_) as (NE1 & _).
        unfold join in B. cbn [map List.concat snd] in B. rewrite app_length in B. destruct s1; [contradiction|]. cbn [length] in B. lia.
  - (* nothing for this channel *)
    destruct fuel as [|fuel]; [lia|].
    destruct (next_segs _ _ _ RR sp_) as (NEs & Fs & RR' & LS).
    change (join ((k, s) :: R)) with (s ++ join R) in Es.
    cbn [channels_loop].
    assert (HNum : (Z.of_nat (length stm) <? Z.of_nat (length sp_)) = false).
    { apply Z.ltb_ge. rewrite Es, app_length. lia. }
    assert (Hsg : exists y, sg stm (Z.of_nat (length sp_)) = Ok y /\ seg_key y = k).
    { destruct s as [|y s']; [contradiction|]. exists y. split; [|inversion Fs; assumption].
      unfold sg. rewrite Es, Nat2Z.id, nth_error_app2, Nat.sub_diag by lia. reflexivity. }
    destruct Hsg as (y & Hy & Ky).
    set (fbk := if feedback o then sg stm (Z.of_nat (length sp_)) else _).
    assert (Hf : exists z, fbk = Ok z) by (subst fbk; destruct (feedback o); [rewrite Hy|]; eauto).
    destruct Hf as (z & Hf). rewrite Hf. cbn [rbind]. clear fbk Hf.
    set (sel := if Z.of_nat (length hyp) <? Z.of_nat (length hp) + 1 then _ else _).
    assert (Hsel : sel = Ok (Some (Z.of_nat (length hp) + Z.of_nat (length (@List.concat mword []))))).
    { subst sel. cbn [List.concat length]. rewrite Z.add_0_r.
      inversion RH as [EJ EH|k1 l1 rest1 rs1 NE1 F1 RR1 D1 EJ EH].
      - subst H. cbn [join map List.concat mark_alternates] in Eh. rewrite app_nil_r in Eh. subst hyp.
        rewrite (proj2 (Z.ltb_lt _ _)) by lia. rewrite Hy. cbn [rbind]. rewrite locate_words_end. reflexivity.
      - subst H. inversion HU as [|rr us1 HH uss1 Hus1 HUs1]; subst rr HH uss.
        destruct (next_words _ _ _ us1 uss1 RH Hus1 HUs1 hp) as (ms & EM & M & NEw & RH' & (x & q & Ex & Kx) & LW).
        rewrite Eh, EM, Ex. rewrite (proj2 (Z.ltb_ge _ _)) by (rewrite app_length; cbn [length]; lia).
        rewrite HNum. rewrite wd_at by reflexivity. cbn [rbind]. rewrite Hy. cbn [rbind].
        rewrite (not_true (str_eqb (conv x) (file y) && str_eqb (turn x) (chan y))); [cbn [rbind]; do 2 f_equal; lia|].
        rewrite andb_true_iff, !str_eqb_iff. intros [A B]. apply D. unfold word_key in Kx. unfold seg_key in Ky.
        rewrite <- Kx, A, B. exact Ky. }
    rewrite Hsel. cbn [rbind]. clear sel Hsel.
    rewrite <- Es in LS. rewrite LS.
    set (rend := match R with [] => _ | _ => _ end).
    assert (Hr : rend = Z.of_nat (length sp_) + Z.of_nat (length s) - 1 \/ (join R = [] /\ rend = Z.of_nat (length stm))).
    { subst rend. destruct R; [right|left]; auto. }
    destruct (align_one_spec o sp_ s (join R) hp [] [] (mark_alternates false (join H)) rend hyp stm Es Eh (Forall_nil _) (Forall2_nil _) Hr) as (c & HC & CD).
    rewrite HC. cbn [rbind List.concat length].
    destruct R as [|r1 R].
    + inversion PP; subst H0 P H'. apply loop_tail with (us := []); [exact CD| |].
      * intros A. destruct H as [|h H'].
        -- exfalso. rewrite Eh in A. cbn [mark_alternates join map List.concat] in A. rewrite app_nil_r in A. subst rend. lia.
        -- apply too_much; [cbn [length] in L; lia|subst rend; lia|].
           rewrite Eh, app_length. pose proof (runs_nonempty _ _ _ _ RH) as NJ.
           rewrite mark_length. lia.
      * intros A B. split; [reflexivity|]. destruct H as [|h H']; [reflexivity|]. exfalso.
        rewrite Eh, app_length, mark_length in A. pose proof (runs_nonempty _ _ _ _ RH) as NJ. lia.
    + apply loop_tail with (us := []); [exact CD| |].
      * intros _. replace (rend + 1) with (Z.of_nat (length (sp_ ++ s))) by (subst rend; rewrite app_length; lia).
        replace (Z.of_nat (length hp) + Z.of_nat 0 + 1) with (Z.of_nat (length hp) + 1) by lia.
        apply (IH ltac:(discriminate) RR' RH uss HU).
        { cbn [length] in *. lia. }
        { rewrite Es, app_assoc. reflexivity. }
        { exact Eh. }
      * intros _ B. exfalso. subst rend. rewrite Es, !app_length in B.
        destruct r1 as [k1 s1]. destruct (next_segs _ _ _ RR' sp_) as (NE1 & _).
        unfold join in B. cbn [map List.concat snd] in B. rewrite app_length in B. destruct s1; [contradiction|]. cbn [length] in B. lia.
Qed.
