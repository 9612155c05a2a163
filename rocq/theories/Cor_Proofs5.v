(** The warnings: what the systems do not have in common. *)
From Coq Require Import List Arith ZArith NArith Bool Lia.
From Verif Require Import Base Text_Model NetDp_Model Word_Model Order_Model Order_Proofs1 Scores_Model Alex_Model Alex_Proofs1 Alex_Proofs2 Cor_Model Cor_Spec Cor_Proofs1 Cor_Proofs2.
Import ListNotations.
Local Open Scope res_scope.
Local Open Scope nat_scope.

Lemma eqb_iff a b : eqb a b = true <-> a = b.
Proof. unfold eqb. destruct (list_eq_dec N.eq_dec a b); split; congruence. Qed.
Lemma find_name_fst n (s : system) : forall k q, find_name n s k = Some q -> k <= q /\ exists g : group, nth_error s (q - k) = Some g /\ fst g = n.
Proof.
  induction s as [|g s IH]; intros k q H; cbn [find_name] in H; [discriminate|]. rewrite same_eqb in H. destruct (eqb (fst g) n) eqn:E.
  - injection H as <-. split; [lia|]. exists g. rewrite Nat.sub_diag. split; [reflexivity|apply eqb_iff; exact E].
  - destruct (IH _ _ H) as (L & g' & E' & F). split; [lia|]. exists g'. split; [|exact F]. replace (q - k) with (S (q - (k + 1))) by lia. exact E'.
Qed.
Definition named (n : list N) (s : system) (q : nat) : Prop := exists g : group, nth_error s q = Some g /\ fst g = n.
Lemma find_all_named n ss : forall ptr, find_all n ss = Some ptr -> Forall2 (named n) ss ptr.
Proof.
  induction ss as [|s ss IH]; intros ptr H; cbn [find_all] in H; [injection H as <-; constructor|].
  destruct (find_name n s 0) as [q|] eqn:E; [|discriminate]. destruct (find_all n ss) as [l|]; [|discriminate]. injection H as <-. constructor; [|apply IH; reflexivity].
  destruct (find_name_fst _ _ _ _ E) as (_ & g & A & B). rewrite Nat.sub_0_r in A. exists g. auto.
Qed.
Lemma names_ok s0 ss : forall s pre, s0 = pre ++ s ->
  Forall2 (fun ptr n => Forall2 (named n) (s0 :: ss) ptr) (matched_grp ss s (length pre)) (map fst (common s ss)).
Proof.
  induction s as [|g s IH]; intros pre E; cbn [matched_grp common]; [constructor|]. pose proof (find_all_ok (fst g) ss) as X.
  destruct (find_all (fst g) ss) as [ptr|] eqn:Ef, (all (map (spoken (fst g)) ss)) as [os|]; try contradiction; [|constructor]. cbn [map fst]. constructor.
  - constructor; [|apply find_all_named; exact Ef]. exists g. split; [|reflexivity]. rewrite E, nth_error_app2, Nat.sub_diag by lia. reflexivity.
  - specialize (IH (pre ++ [g])). rewrite <- app_assoc, app_length in IH. apply IH. exact E.
Qed.
Lemma Forall2_nth {A B} (R : A -> B -> Prop) u v k x : Forall2 R u v -> nth_error u k = Some x -> exists y, nth_error v k = Some y /\ R x y.
Proof. intros H. revert k. induction H as [|a b u v H F IH]; intros [|k] E; cbn in E; try discriminate; [injection E as <-; exists b; auto|]. apply IH. exact E. Qed.
Lemma Forall2_nth2 {A B} (R : A -> B -> Prop) u v k y : Forall2 R u v -> nth_error v k = Some y -> exists x, nth_error u k = Some x /\ R x y.
Proof. intros H. revert k. induction H as [|a b u v H F IH]; intros [|k] E; cbn in E; try discriminate; [injection E as <-; exists a; auto|]. apply IH. exact E. Qed.
Lemma flat_nth {A B} (t : nat -> bool) (t' : A -> bool) (f : A -> B) (s : list A) : (forall k g, nth_error s k = Some g -> t k = t' g) ->
  flat_map (fun k => match nth_error s k with Some g => if t k then [] else [f g] | None => [] end) (seq 0 (length s)) = map f (filter (fun g => negb (t' g)) s).
Proof.
  revert t. induction s as [|g s IH]; intros t H; [reflexivity|]. cbn [length seq flat_map nth_error filter]. rewrite (H 0 g eq_refl).
  rewrite <- seq_shift, flat_map_concat_map, map_map, <- flat_map_concat_map. cbn [nth_error].
  rewrite (IH (fun k => t (S k))) by (intros k g' E; apply (H (S k)); exact E). destruct (t' g); reflexivity.
Qed.
Lemma each_get {A B} (f : A -> res B) (u : list A) (v : list B) : Forall2 (fun x y => f x = Ok y) u v -> each f u = Ok v.
Proof. induction 1 as [|x y u v E F IH]; [reflexivity|]. cbn [each]. rewrite E. cbn [rbind]. rewrite IH. reflexivity. Qed.
Lemma nodup_nth {A} (l : list A) i j x : NoDup l -> nth_error l i = Some x -> nth_error l j = Some x -> i = j.
Proof. intros H A1 A2. apply (proj1 (NoDup_nth_error l) H); [apply nth_error_Some; congruence|congruence]. Qed.
Lemma used_ok {A} (nm : A -> list N) (sy : list A) (qs : list nat) (ns : list (list N)) : NoDup (map nm sy) ->
  Forall2 (fun q n => exists g, nth_error sy q = Some g /\ nm g = n) qs ns ->
  forall k g, nth_error sy k = Some g -> existsb (Nat.eqb k) qs = existsb (eqb (nm g)) ns.
Proof.
  intros ND F k g Hk. induction F as [|q n qs ns (g' & E & En) F IH]; cbn [existsb]; [reflexivity|]. rewrite IH. f_equal. subst n.
  destruct (Nat.eqb_spec k q) as [->|Ne].
  - rewrite Hk in E. injection E as ->. symmetry. apply eqb_iff. reflexivity.
  - destruct (eqb (nm g) (nm g')) eqn:X; [|reflexivity]. exfalso. apply eqb_iff in X. apply Ne. apply (nodup_nth (map nm sy) k q (nm g) ND).
    + rewrite nth_error_map, Hk. reflexivity.
    + rewrite nth_error_map, E. cbn. congruence.
Qed.
Lemma unmatched_grp_ok s0 ss c sc sy : c_ptr c = matched_grp ss s0 0 -> nth_error (s0 :: ss) sc = Some sy -> NoDup (map fst sy) ->
  unmatched_grp c sy sc = Ok (map fst (filter (fun g => negb (existsb (eqb (fst g)) (map fst (common s0 ss)))) sy)).
Proof.
  intros Ec Hs ND. unfold unmatched_grp. rewrite Ec. pose proof (names_ok s0 ss s0 [] eq_refl) as F. cbn [length] in F.
  assert (X : exists qs, Forall2 (fun ptr q => get ptr sc = Ok q) (matched_grp ss s0 0) qs /\ Forall2 (fun q n => exists g, nth_error sy q = Some g /\ fst g = n) qs (map fst (common s0 ss))).
  { clear Ec. induction F as [|ptr n ptrs ns H F IH]; [exists []; split; constructor|]. destruct IH as (qs & A & B).
    destruct (Forall2_nth _ _ _ _ _ H Hs) as (q & Eq & Hn). exists (q :: qs). split; constructor; auto. apply get_nth. exact Eq. }
  destruct X as (qs & A & B). rewrite (each_get _ _ _ A). cbn [rbind]. f_equal. apply (flat_nth (fun k => existsb (Nat.eqb k) qs)). apply (used_ok fst); assumption.
Qed.
Lemma get_some {A} (l : list A) i x : get l i = Ok x -> nth_error l i = Some x.
Proof. unfold get. destruct (nth_error l i); [intros H; injection H as ->; reflexivity|discriminate]. Qed.
Lemma load_nth ss : forall ptr row xs sc sy, load ss ptr row = Ok xs -> nth_error ss sc = Some sy ->
  exists q p g x, nth_error ptr sc = Some q /\ nth_error row sc = Some p /\ nth_error sy q = Some g /\ nth_error (snd g) p = Some x /\ nth_error xs sc = Some x.
Proof.
  induction ss as [|s ss IH]; intros ptr row xs sc sy H Hs; [destruct sc; discriminate|]. destruct ptr as [|q ptr], row as [|p row]; cbn [load] in H; try discriminate.
  destruct (get s q) as [g| | |] eqn:Eg; try discriminate. cbn [rbind] in H. destruct (get (snd g) p) as [x| | |] eqn:Ex; try discriminate. cbn [rbind] in H.
  destruct (load ss ptr row) as [ys| | |] eqn:El; try discriminate. cbn [rbind] in H. injection H as <-. destruct sc as [|sc]; cbn [nth_error] in *.
  - injection Hs as <-. exists q, p, g, x. apply get_some in Eg, Ex. auto.
  - eapply IH; eassumption.
Qed.
Lemma sets_ids ps os row : In row (sets ps os) -> forall x, In x row -> s_id x = s_id (hd x row).
Proof.
  unfold sets. intros H x Hx. apply in_flat_map in H as (p & _ & H). destruct (all (map (with_id (s_id p)) os)) as [qs|] eqn:E; [|destruct H]. destruct H as [<-|[]]. cbn [hd].
  destruct Hx as [<-|Hx]; [reflexivity|]. revert qs E Hx. induction os as [|o os IH]; intros qs E Hx; cbn [map all] in E; [injection E as <-; destruct Hx|].
  destruct (with_id (s_id p) o) as [q|] eqn:Ew; [|discriminate]. destruct (all (map (with_id (s_id p)) os)) as [qs'|] eqn:E2; [|discriminate]. injection E as <-.
  destruct Hx as [<-|Hx]; [|apply (IH qs'); auto]. unfold with_id in Ew. apply find_some in Ew as [_ Ew]. apply eqb_iff. exact Ew.
Qed.
Lemma spoken_nodup n (sy : system) q g : NoDup (map fst sy) -> nth_error sy q = Some g -> fst g = n -> spoken n sy = Some (snd g).
Proof.
  intros ND. unfold spoken. revert q. induction sy as [|h sy IH]; intros [|q] E En; cbn in E; try discriminate; cbn [find].
  - injection E as ->. replace (eqb (fst g) n) with true by (symmetry; apply eqb_iff; exact En). reflexivity.
  - inversion ND as [|? ? NI ND']; subst. destruct (eqb (fst h) (fst g)) eqn:X; [|apply (IH ND' q); auto]. exfalso. apply eqb_iff in X. apply NI. rewrite X. apply in_map. eapply nth_error_In. exact E.
Qed.
Lemma fits_nth ss t : forall ptrs nps cs g0 gr c, fits_table ss t g0 ptrs nps cs -> nth_error cs gr = Some c ->
  exists ptr np rows, nth_error ptrs gr = Some ptr /\ nth_error nps gr = Some np /\ get t (g0 + gr) = Ok rows /\ np <= length rows
    /\ Forall2 (fun row ps => load ss ptr row = Ok ps) (firstn np rows) c.
Proof.
  induction ptrs as [|ptr ptrs IH]; intros [|np nps] [|c0 cs] g0 gr c H Hc; cbn in H; try (destruct H; fail); [destruct gr; discriminate|].
  destruct H as ((rows & E & L & F) & H). destruct gr as [|gr]; cbn in Hc.
  - injection Hc as ->. exists ptr, np, rows. rewrite Nat.add_0_r. auto.
  - destruct (IH nps cs (g0 + 1) gr c H Hc) as (ptr' & np' & rows' & A & B & C & D & F'). exists ptr', np', rows'. replace (g0 + S gr) with (g0 + 1 + gr) by lia. auto.
Qed.
Lemma common_sets s0 ss n c : In (n, c) (common s0 ss) -> exists ps os, c = sets ps os.
Proof.
  induction s0 as [|g s0 IH]; cbn [common]; [intros []|]. destruct (all (map (spoken (fst g)) ss)) as [os|]; [|intros []]. intros [H|H]; [|apply IH; exact H].
  injection H as _ <-. exists (snd g), os. reflexivity.
Qed.
Lemma seq_get {A} : forall np (rows : list A), np <= length rows -> Forall2 (fun k row => get rows k = Ok row) (seq 0 np) (firstn np rows).
Proof.
  induction np as [|np IH]; intros [|r rows] L; cbn [length] in L; try lia; cbn [seq firstn]; constructor; [reflexivity|].
  rewrite <- seq_shift. specialize (IH rows ltac:(lia)). remember (firstn np rows) as v. clear Heqv L. induction IH as [|k row u v E F IH]; constructor; [exact E|exact IH].
Qed.
Definition no_path : sentence := {| s_id := []; s_steps := [] |}.
Lemma unmatched_path_ok s0 ss c sc sy gr n cs ps : locate_matched s0 ss = Ok c -> nth_error (s0 :: ss) sc = Some sy -> NoDup (map fst sy) ->
  nth_error (common s0 ss) gr = Some (n, cs) -> spoken n sy = Some ps -> NoDup (map s_id ps) ->
  unmatched_path c sy sc gr = Ok (map s_id (filter (fun p => negb (existsb (eqb (s_id p)) (map (fun row => s_id (hd no_path row)) cs))) ps)).
Proof.
  intros Hc Hs ND Hg Hp NDp. destruct (located s0 ss) as (c' & Ec & F & Ep). rewrite Hc in Ec. injection Ec as <-.
  destruct (fits_nth _ _ _ _ _ _ gr cs F) as (ptr & np & rows & E1 & E2 & E3 & L & Fr); [rewrite nth_error_map, Hg; reflexivity|].
  unfold unmatched_path. rewrite (get_nth _ _ _ E1). cbn [rbind]. rewrite (get_nth _ _ _ E2). cbn [rbind]. rewrite Nat.add_0_l in E3. rewrite E3. cbn [rbind].
  pose proof (names_ok s0 ss s0 [] eq_refl) as Fn. cbn [length] in Fn. rewrite <- Ep in Fn.
  destruct (Forall2_nth _ _ _ _ _ Fn E1) as (n' & En & Fp). rewrite nth_error_map, Hg in En. injection En as <-.
  destruct (Forall2_nth _ _ _ _ _ Fp Hs) as (q & Eq & g & Eg & Eng). rewrite (get_nth _ _ _ Eq). cbn [rbind]. rewrite (get_nth _ _ _ Eg). cbn [rbind].
  assert (Eps : snd g = ps) by (rewrite (spoken_nodup n sy q g ND Eg Eng) in Hp; congruence).
  destruct (common_sets s0 ss n cs) as (p0 & os & Es); [eapply nth_error_In; exact Hg|].
  assert (X : exists us, each (fun p => let* row := get rows p in get row sc) (seq 0 np) = Ok us
     /\ Forall2 (fun u i => exists x, nth_error ps u = Some x /\ s_id x = i) us (map (fun row => s_id (hd no_path row)) cs)).
  { assert (Y : exists us, Forall2 (fun row u => get row sc = Ok u) (firstn np rows) us /\ Forall2 (fun u i => exists x, nth_error ps u = Some x /\ s_id x = i) us (map (fun row => s_id (hd no_path row)) cs)).
    { assert (Hids : forall row, In row cs -> forall x, In x row -> s_id x = s_id (hd x row)) by (subst cs; apply sets_ids). clear - Fr Hs Eps Eq Eg Hids.
      induction Fr as [|row xs rs cs H Fr IH]; [exists []; split; constructor|]. destruct IH as (us & A & B); [intros r Hr; apply Hids; right; exact Hr|].
      destruct (load_nth _ _ _ _ _ _ H Hs) as (q' & p & g' & x & B1 & B2 & B3 & B4 & B5). rewrite Eq in B1. injection B1 as <-. rewrite Eg in B3. injection B3 as <-.
      exists (p :: us). split; constructor; auto; [apply get_nth; exact B2|]. exists x. rewrite <- Eps. split; [exact B4|].
      rewrite (Hids xs (or_introl eq_refl) x) by (eapply nth_error_In; exact B5). destruct xs; [destruct sc; discriminate|reflexivity]. }
    destruct Y as (us & A & B). exists us. split; [|exact B]. apply each_get.
    pose proof (seq_get np rows L) as Z.
    clear - A Z. revert us A. induction Z as [|k row u v E Z IH]; intros us A; inversion A; subst; constructor; [rewrite E; assumption|apply IH; assumption]. }
  destruct X as (us & -> & B). cbn [rbind]. f_equal. rewrite Eps. apply (flat_nth (fun k => existsb (Nat.eqb k) us)). apply (used_ok s_id); assumption.
Qed.
