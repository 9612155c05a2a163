(** Lemmas for the loading of word weight files. *)
From Coq Require Import String List NArith ZArith Arith Bool Lia Permutation Sorted.
From Verif Require Import Base Text_Model Text_Spec Text_Proofs1 Word_Model Word_Proofs Order_Model Store_Model Alex_Model AsStm_Model Wwl_Model Wwl_Spec.
From Verif Require AsStm_Spec AsStm_Proofs1.
Import ListNotations.
Local Open Scope res_scope.
Local Open Scope nat_scope.

(** ** Searching *)
Lemma after_some P : forall l b, after P l = Some b -> exists a, place (map lower P) a l b.
Proof.
  induction l as [|c l IH]; intros b; cbn [after]; destruct (starts (map lower P) _) eqn:E; intros H.
  - apply AsStm_Proofs1.starts_iff in E. destruct E as (r & E). cbn [map] in E. destruct P; [|discriminate]. cbn in H. injection H as <-.
    exists []. split; [exists []; split; [reflexivity|constructor]|]. intros; cbn; lia.
  - discriminate.
  - apply AsStm_Proofs1.starts_iff in E. destruct E as (r & E). destruct (AsStm_Proofs1.map_split _ _ _ _ E) as (x & y & E1 & E2 & E3).
    exists []. split; [|intros; cbn; lia]. exists x. split; [|apply AsStm_Proofs1.ignoring_iff, E2]. cbn [app].
    assert (L : length P = length x) by (rewrite <- (map_length lower x), E2, map_length; reflexivity).
    unfold str in *. rewrite E1 in H |- *. rewrite L in H. rewrite skipn_app, skipn_all, Nat.sub_diag in H. cbn in H. congruence.
  - destruct (IH _ H) as (a & (m & E1 & E2) & F). exists (c :: a). split; [exists m; split; [rewrite E1; reflexivity|exact E2]|].
    intros [|c' a'] m' b' E3 I.
    + exfalso. apply AsStm_Proofs1.ignoring_iff in I. apply eq_true_false_abs in E; [exact E|]. apply AsStm_Proofs1.starts_iff.
      exists (map lower b'). cbn [app] in E3. rewrite E3, map_app, I. reflexivity.
    + injection E3 as _ E3. cbn. pose proof (F _ _ _ E3 I). lia.
Qed.
Lemma skip_len {A} (x y : list A) : skipn (length x) (x ++ y) = y.
Proof. rewrite skipn_app, skipn_all, Nat.sub_diag. reflexivity. Qed.
Lemma place_fun p a b a' b' l : place p a l b -> place p a' l b' -> b = b'.
Proof.
  intros ((m & E1 & I1) & F1) ((m' & E2 & I2) & F2).
  assert (L : length a = length a') by (pose proof (F1 _ _ _ E2 I2); pose proof (F2 _ _ _ E1 I1); lia).
  assert (LM : length m = length m') by (apply AsStm_Proofs1.ignoring_iff in I1, I2; rewrite <- (map_length lower m), <- (map_length lower m'); congruence).
  rewrite E1 in E2. rewrite !app_assoc in E2.
  assert (S : skipn (length (a ++ m)) ((a ++ m) ++ b) = skipn (length (a' ++ m')) ((a' ++ m') ++ b')).
  { rewrite E2. f_equal. rewrite !app_length. lia. }
  rewrite !skip_len in S. exact S.
Qed.
Lemma after_place P p a l b : map lower P = p -> place p a l b -> after P l = Some b.
Proof.
  intros <- H. destruct (after P l) eqn:E.
  - destruct (after_some _ _ _ E) as (a' & H'). f_equal. eapply place_fun; eassumption.
  - exfalso. destruct H as ((m & -> & I) & _). apply AsStm_Proofs1.ignoring_iff in I.
    revert E. induction a as [|c a IH].
    + cbn [app]. intros E. destruct (m ++ b) eqn:EM; cbn [after] in E; unfold str in *; rewrite <- EM, map_app, I in E;
      (replace (starts (map lower P) _) with true in E by (symmetry; apply AsStm_Proofs1.starts_iff; eauto)); discriminate.
    + cbn [app after]. destruct starts; [discriminate|exact IH].
Qed.
Lemma after_absent P p l : map lower P = p -> absent p l -> after P l = None.
Proof.
  intros <- H. destruct (after P l) eqn:E; [|reflexivity]. exfalso. destruct (after_some _ _ _ E) as (a & (m & E1 & I) & _).
  exact (H _ _ _ E1 I).
Qed.
Lemma quote_at a r : ~ In 39%N a -> quote (a ++ [39%N] ++ r) = Some (a, r).
Proof.
  induction a as [|c a IH]; intros H; [reflexivity|]. cbn [app quote].
  destruct (N.eqb_spec c 39); [subst; exfalso; apply H; left; reflexivity|].
  cbn [app] in IH. rewrite IH by (intros K; apply H; right; exact K). reflexivity.
Qed.
Lemma quote_none l : ~ In 39%N l -> quote l = None.
Proof.
  induction l as [|c a IH]; intros H; [reflexivity|]. cbn [quote].
  destruct (N.eqb_spec c 39); [subst; exfalso; apply H; left; reflexivity|].
  rewrite IH by (intros K; apply H; right; exact K). reflexivity.
Qed.
Lemma names_quoted r ds : quoted r ds -> forall fuel descs, length r < fuel -> length descs + length ds <= MAX_W ->
  names fuel r descs = Ok (descs ++ ds).
Proof.
  induction 1 as [r H|a d r ds Ha Hd Q IH]; intros [|f] descs Hf Hl; try lia; cbn [names].
  - rewrite quote_none by exact H. rewrite app_nil_r. reflexivity.
  - rewrite quote_at by exact Ha. rewrite quote_at by exact Hd. cbn [length] in Hl.
    destruct (Nat.ltb_spec (length descs) MAX_W); [|lia].
    rewrite IH; [rewrite <- app_assoc; reflexivity| |rewrite app_length; cbn [length]; lia].
    unfold str in *. rewrite !app_length in Hf. cbn [length] in Hf. lia.
Qed.

(** ** Kinds of lines *)
Lemma is_comment_iff l : is_comment l = true <-> comment l.
Proof.
  unfold is_comment, comment. destruct l as [|a [|b l]]; [split; [discriminate|intros (r & E); discriminate]..|].
  destruct (N.eqb_spec a 59), (N.eqb_spec b 59); cbn [andb]; split; try discriminate; try (intros (r & E); congruence).
  intros _. subst. eauto.
Qed.
Lemma blank_small c : AsStm_Spec.blank c -> (c < 33)%N.
Proof. unfold AsStm_Spec.blank. lia. Qed.
Lemma is_empty_ok e l : well_formed e l -> is_empty e l = Ok (forallb isspace l).
Proof.
  intros (cs & -> & F). induction F as [|c cs H F IH]; [reflexivity|]. cbn [concat].
  pose proof (nbytes_char e c (concat cs) H) as NB. destruct H as (b & r & E & SZ & G). rewrite E in NB |- *. cbn [app] in NB |- *. cbn [is_empty forallb].
  unfold str in *. rewrite NB. cbn [rbind length]. destruct r as [|b' r].
  - cbn [length Nat.ltb Nat.leb app]. destruct (isspace b); [cbn [andb]; exact IH|reflexivity].
  - cbn [length Nat.ltb Nat.leb]. destruct (isspace b) eqn:SP; [|reflexivity]. exfalso. apply AsStm_Proofs1.isspace_iff, blank_small in SP.
    rewrite E in SZ. destruct e; cbn in SZ; lia.
Qed.
Lemma spaced_word_not_blank l w ws : AsStm_Spec.spaced l (w :: ws) -> forallb isspace l = false.
Proof.
  intros H. destruct (forallb isspace l) eqn:E; [|reflexivity]. exfalso. apply AsStm_Proofs1.pieces_spaced in H.
  assert (F : Forall (fun c => isspace c = true) l) by (apply Forall_forall; apply forallb_forall, E).
  rewrite <- (app_nil_r l), (AsStm_Proofs1.pieces_blank isspace l []) in H by exact F. discriminate.
Qed.
Lemma comment_not_blank l : comment l -> ~ Forall AsStm_Spec.blank l.
Proof. intros (r & ->) F. apply Forall_inv, blank_small in F. lia. Qed.
Lemma blank_absent l p c : Forall AsStm_Spec.blank l -> hd_error p = Some c -> (33 <= c)%N -> absent p l.
Proof.
  intros F H L a m b -> I. apply Forall_app in F. destruct F as (_ & F). apply Forall_app in F. destruct F as (F & _).
  apply AsStm_Proofs1.ignoring_iff in I. subst p. destruct m as [|x m]; [discriminate|]. cbn in H. injection H as H.
  apply Forall_inv, blank_small in F. unfold lower in H. destruct (N.leb_spec 65 x), (N.leb_spec x 90); cbn [andb] in H; lia.
Qed.
Lemma comment_line num e l s : comment l -> line num e l s = remark num l s.
Proof. intros H. unfold line. rewrite (proj2 (is_comment_iff l) H). reflexivity. Qed.
Lemma well_formed_no_nul e l : well_formed e l -> Forall (fun c => c <> 0%N) l.
Proof.
  intros (cs & -> & F). induction F as [|c cs H F IH]; [constructor|]. cbn [concat]. apply Forall_app. split; [|exact IH].
  destruct H as (b & r & _ & _ & G). eapply Forall_impl; [|exact G]. cbn. intros; lia.
Qed.
Lemma string_in_id l : Forall (fun c => c <> 0%N) l -> string_in l = l.
Proof.
  induction 1 as [|c l H F IH]; [reflexivity|]. cbn [string_in]. destruct (N.eqb_spec c 0); [congruence|]. rewrite IH. reflexivity.
Qed.

(** ** The array of words *)
Lemma set_split {A} (l : list A) : forall i x, i < length l -> set l i x = Ok (firstn i l ++ x :: skipn (S i) l).
Proof.
  induction l as [|y l IH]; intros [|i] x H; cbn [length] in H; try lia; [reflexivity|].
  cbn [set]. rewrite IH by lia. cbn [rbind firstn skipn app]. reflexivity.
Qed.
(** the words [es] are in the array *)
Definition has (s : state) (es : list ww) (m : nat) (d : list str) (x : Z) : Prop :=
  s_num s = length es /\ firstn (length es) (s_words s) = map Some es /\ length es <= length (s_words s)
  /\ length (s_words s) < s_guess s /\ 2 <= s_guess s /\ s_min s = m /\ s_desc s = d /\ s_default s = x.
Lemma room_ok s es m d x : has s es m d x -> exists s', room s = Ok s' /\ has s' es m d x /\ length es < length (s_words s').
Proof.
  intros (N1 & F & L1 & L2 & G & M & D & X). unfold room. destruct (Nat.ltb_spec (length (s_words s)) (s_num s + 1)).
  - destruct (Nat.ltb_spec (s_guess s) (s_num s)); [lia|]. eexists. split; [reflexivity|].
    assert (LF : length (firstn (s_num s) (s_words s)) = length es) by (rewrite firstn_length; lia).
    assert (Q : s_guess s < s_guess s * 3 / 2) by (apply Nat.div_le_lower_bound; lia).
    unfold has. cbn [s_words s_num s_guess s_min s_desc s_default]. rewrite app_length, LF, repeat_length.
    repeat split; try assumption; try lia.
    rewrite firstn_app, LF, Nat.sub_diag, firstn_O, app_nil_r. rewrite firstn_firstn, N1, Nat.min_id. exact F.
  - exists s. split; [reflexivity|]. split; [unfold has; tauto|lia].
Qed.
Definition entry (num : str -> Z) (p : str * list str) : ww :=
  {| ww_str := fst p; ww_weight := map (fun x => Some (num x)) (snd p) ++ repeat None (MAX_W - length (snd p)) |}.
Lemma data_ok num l w ws s es m d x : AsStm_Spec.spaced l (w :: ws) -> ws <> [] -> has s es m d x ->
  exists s', data num l s = Ok (Some s') /\ has s' (es ++ [entry num (w, firstn 5 ws)]) (Nat.min (S (length (firstn 5 ws))) m) d x.
Proof.
  intros SP NE H. unfold data. rewrite (AsStm_Proofs1.pieces_spaced _ _ SP). cbn [firstn].
  destruct ws as [|x0 ws]; [congruence|]. cbn [firstn]. destruct (room_ok _ _ _ _ _ H) as (s1 & -> & H1 & R). cbn [rbind].
  destruct H1 as (N1 & F & L1 & L2 & G & M & D & X). rewrite set_split by lia. cbn [rbind]. eexists. split; [reflexivity|].
  unfold has. cbn [s_words s_num s_guess s_min s_desc s_default]. rewrite !app_length. cbn [length].
  rewrite skipn_length, firstn_length.
  repeat split; try assumption; try lia.
  - rewrite N1. rewrite firstn_app, firstn_firstn, firstn_length. replace (Nat.min (length es + 1) (length es)) with (length es) by lia.
    replace (length es + 1 - Nat.min (length es) (length (s_words s1))) with 1 by lia. rewrite F. rewrite map_app. f_equal. cbn [firstn map]. unfold entry. cbn [fst snd length map app]. rewrite map_length. reflexivity.
  - rewrite M. reflexivity.
Qed.

Definition apply_item (num : str -> Z) (i : item) (es : list ww) (m : nat) (d : list str) (x : Z) : list ww * nat * list str * Z :=
  match i with
  | IWord w ws => (es ++ [entry num (w, ws)], Nat.min (S (length ws)) m, d, x)
  | INames ds => (es, m, d ++ ds, x)
  | IDefault t => (es, m, d, num t)
  | INothing => (es, m, d, x)
  end.
Definition has' s (t : list ww * nat * list str * Z) := let '(es, m, d, x) := t in has s es m d x.
Lemma low_headings : map lower HEADINGS = bytes "'headings'". Proof. reflexivity. Qed.
Lemma low_spelling : map lower SPELLING = bytes "'word spelling'". Proof. reflexivity. Qed.
Lemma low_missing : map lower MISSING = bytes "default missing weight". Proof. reflexivity. Qed.
Lemma line_ok num e l i s es m d x : line_says l i -> well_formed e l -> has s es m d x ->
  (match i with INames ds => length d + length ds <= MAX_W | _ => True end) ->
  exists s', line num e l s = Ok (Some s') /\ has' s' (apply_item num i es m d x).
Proof.
  intros LS WF H B. destruct LS.
  - assert (NC : is_comment l = false).
    { destruct (is_comment l) eqn:E; [|reflexivity]. apply is_comment_iff, comment_not_blank in E. contradiction. }
    unfold line. rewrite NC, is_empty_ok by exact WF. cbn [rbind].
    replace (forallb isspace l) with true.
    2:{ symmetry. apply forallb_forall. intros c I. apply AsStm_Proofs1.isspace_iff. rewrite Forall_forall in H0. auto. }
    unfold remark. rewrite (after_absent HEADINGS _ l low_headings) by (eapply blank_absent; [exact H0|reflexivity|vm_compute; discriminate]).
    rewrite (after_absent MISSING _ l low_missing) by (eapply blank_absent; [exact H0|reflexivity|vm_compute; discriminate]). eauto.
  - assert (NC : is_comment l = false).
    { destruct (is_comment l) eqn:E; [|reflexivity]. apply is_comment_iff in E. contradiction. }
    unfold line. rewrite NC, is_empty_ok by exact WF. cbn [rbind]. erewrite spaced_word_not_blank by eassumption.
    eapply data_ok; eassumption.
  - rewrite comment_line by assumption. unfold remark. erewrite (after_place HEADINGS) by (exact low_headings || eassumption).
    erewrite (after_place SPELLING) by (exact low_spelling || eassumption).
    destruct H as (N1 & F & L1 & L2 & G & M & D & X). rewrite (names_quoted _ _ H3); [|apply Nat.lt_succ_diag_r|rewrite D; exact B]. cbn [rbind].
    eexists. split; [reflexivity|]. cbn. unfold has. cbn [s_words s_num s_guess s_min s_desc s_default]. rewrite D. tauto.
  - rewrite comment_line by assumption. unfold remark. erewrite (after_place HEADINGS) by (exact low_headings || eassumption).
    rewrite (after_absent SPELLING _ _ low_spelling) by assumption. eauto.
  - rewrite comment_line by assumption. unfold remark. rewrite (after_absent HEADINGS _ _ low_headings) by assumption.
    erewrite (after_place MISSING) by (exact low_missing || eassumption). subst l. rewrite quote_at by assumption. rewrite quote_at by assumption.
    eexists. split; [reflexivity|]. cbn. destruct H as (N1 & F & L1 & L2 & G & M & D & X). unfold has. cbn [s_words s_num s_guess s_min s_desc s_default]. tauto.
  - rewrite comment_line by assumption. unfold remark. rewrite (after_absent HEADINGS _ _ low_headings) by assumption.
    erewrite (after_place MISSING) by (exact low_missing || eassumption). destruct H3 as [NQ|(a' & b' & -> & N1 & N2)].
    + rewrite quote_none by exact NQ. eauto.
    + rewrite quote_at by exact N1. rewrite quote_none by exact N2. eauto.
  - rewrite comment_line by assumption. unfold remark. rewrite (after_absent HEADINGS _ _ low_headings) by assumption.
    rewrite (after_absent MISSING _ _ low_missing) by assumption. eauto.
Qed.
