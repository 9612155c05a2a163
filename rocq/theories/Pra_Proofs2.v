(** The columns of the printed alignment, and reading it. *)
From Coq Require Import String Ascii List Arith ZArith NArith Bool Lia.
From Verif Require Import Base Text_Model NetDp_Model Word_Model Path_Model Path_Spec Alex_Model Dtl_Model Pra_Model Pra_Spec Pra_Proofs1.
Import ListNotations.
Local Open Scope nat_scope.

Definition body (a : attribs) (f : step word -> list N) (p : list (step word)) : list N := flat_map (fun s => fill (col a s) (f s) ++ blanks 1) p.
Lemma fill_length w t : length t <= w -> length (fill w t) = w.
Proof. intros H. unfold fill, blanks. rewrite app_length, repeat_length. lia. Qed.
Lemma body_length a f p : Forall (fun s => length (f s) <= col a s) p -> length (body a f p) = sumw a p.
Proof.
  unfold body. induction 1 as [|s p H F IH]; [reflexivity|]. cbn [flat_map]. rewrite !app_length, IH, fill_length by exact H. rewrite sumw_cons. cbn. lia.
Qed.
Lemma body_app a f p q : body a f (p ++ q) = body a f p ++ body a f q.
Proof. unfold body. apply flat_map_app. Qed.
Lemma title_length up n a t : In t (lines up n a) -> length (fst t) = 6.
Proof.
  unfold lines, only. intros H.
  destruct (at_rwtimes a), (at_rconf a), (at_hwtimes a), (at_hconf a), (at_rweight a), (at_hweight a); cbn [app] in H; repeat (destruct H as [<-|H]; [reflexivity|]); destruct H.
Qed.
Definition before (first : bool) : list N := if first then [] else txt ">> ".
Lemma row_body a first p t : row a first p t = before first ++ fst t ++ body a (snd t) p.
Proof. reflexivity. Qed.
Lemma row_length a first p t : length (fst t) = 6 -> Forall (fun s => length (snd t s) <= col a s) p -> length (row a first p t) = width a first p.
Proof. intros L F. rewrite row_body, !app_length, L, (body_length _ _ _ F). unfold width. fold (sumw a p). destruct first; cbn; lia. Qed.
Lemma row_column a first p s q t : length (fst t) = 6 -> Forall (fun s => length (snd t s) <= col a s) (p ++ s :: q) ->
  firstn (S (col a s)) (skipn (width a first p) (row a first (p ++ s :: q) t)) = fill (col a s) (snd t s) ++ blanks 1.
Proof.
  intros L F. rewrite row_body, body_app, !app_assoc. apply Forall_app in F as [F1 F2]. rewrite <- (row_length a first p t L F1) at 1.
  replace (length (row a first p t)) with (length ((before first ++ fst t) ++ body a (snd t) p)) by (rewrite row_body, !app_length; lia).
  rewrite skipn_app, skipn_all, Nat.sub_diag. cbn [app skipn]. unfold body. cbn [flat_map].
  rewrite firstn_app. assert (E : length (fill (col a s) (snd t s) ++ blanks 1) = S (col a s)) by (rewrite app_length, fill_length by (apply Forall_inv in F2; exact F2); cbn; lia).
  rewrite E, Nat.sub_diag, firstn_O, app_nil_r. apply firstn_all2. lia.
Qed.

(** ** Reading *)
Lemma token_fill w t rest : ~ In 32%N t -> token ((fill w t ++ blanks 1) ++ rest) = t.
Proof.
  unfold fill. generalize (w - length t) as k. intros k. induction t as [|b t IH]; intros H.
  - destruct k; reflexivity.
  - cbn [app token]. destruct (N.eqb_spec b 32) as [->|_]; [exfalso; apply H; left; reflexivity|]. f_equal. apply IH. intros X. apply H. right. exact X.
Qed.
Lemma skip_fill w t rest : length t <= w -> skipn (S w) ((fill w t ++ blanks 1) ++ rest) = rest.
Proof.
  intros H. assert (E : length (fill w t ++ blanks 1) = S w) by (rewrite app_length, fill_length by exact H; cbn; lia).
  rewrite <- E, skipn_app, skipn_all, Nat.sub_diag. reflexivity.
Qed.
Definition readable (up : list N -> list N) (w : word) : Prop :=
  w_value w <> [] /\ ~ In 32%N (w_value w) /\ length (up (w_value w)) = length (w_value w) /\ ~ In 32%N (up (w_value w)).
Definition readable_step (up : list N -> list N) (s : step word) : Prop :=
  match fst (fst s) with Some w => readable up w | None => True end /\ match snd (fst s) with Some w => readable up w | None => True end.
Lemma show_ok up case ev w : readable up w -> length (show up case ev w) = length (w_value w) /\ ~ In 32%N (show up case ev w) /\ 1 <= length (w_value w).
Proof. intros (A & B & C & D). unfold show. assert (1 <= length (w_value w)) by (destruct (w_value w); [congruence|cbn; lia]). destruct ev, case; auto. Qed.
Lemma stars_blank k : ~ In 32%N (repeat 42%N k).
Proof. intros H. apply repeat_spec in H. discriminate. Qed.
Lemma sides up case a (s : step word) : well_formed_step s -> readable_step up s ->
  ~ In 32%N (ref_side up case s) /\ ~ In 32%N (hyp_side up case s) /\ ~ In 32%N (mark s)
  /\ col a s = Nat.max (least a) (Nat.max (length (ref_side up case s)) (length (hyp_side up case s)))
  /\ length (mark s) <= col a s /\ step_of (ref_side up case s) (hyp_side up case s) (mark s) = Some (meant up case s).
Proof.
  destruct s as [[[x|] [y|]] ev]; intros W [Rx Ry]; cbn [fst snd] in Rx, Ry; destruct ev; cbn in W; try (destruct W; congruence).
  - destruct (show_ok up case PCorr x Rx) as (A & B & C), (show_ok up case PCorr y Ry) as (A' & B' & C'). unfold col. cbn [ref_side hyp_side mark fst snd len meant option_map]. rewrite A, A'. split; [exact B|]. split; [exact B'|]. split; [intros []|]. split; [lia|]. split; [change (length (txt _)) with 1 || cbn [length]; lia|reflexivity].
  - destruct (show_ok up case PSub x Rx) as (A & B & C), (show_ok up case PSub y Ry) as (A' & B' & C'). unfold col. cbn [ref_side hyp_side mark fst snd len meant option_map]. rewrite A, A'. split; [exact B|]. split; [exact B'|]. split; [intros [X|[]]; discriminate|]. split; [lia|]. split; [change (length (txt _)) with 1 || cbn [length]; lia|reflexivity].
  - destruct (show_ok up case PDel x Rx) as (A & B & C). unfold col. cbn [ref_side hyp_side mark fst snd len meant option_map]. rewrite A, repeat_length. split; [exact B|]. split; [apply stars_blank|]. split; [intros [X|[]]; discriminate|]. split; [lia|]. split; [change (length (txt _)) with 1 || cbn [length]; lia|reflexivity].
  - destruct (show_ok up case PIns y Ry) as (A & B & C). unfold col. cbn [ref_side hyp_side mark fst snd len meant option_map]. rewrite A, repeat_length. split; [apply stars_blank|]. split; [exact B|]. split; [intros [X|[]]; discriminate|]. split; [lia|]. split; [change (length (txt _)) with 1 || cbn [length]; lia|reflexivity].
Qed.
Lemma body_cons a f s p : body a f (s :: p) = (fill (col a s) (f s) ++ blanks 1) ++ body a f p.
Proof. reflexivity. Qed.
Lemma read_body up case a : forall p fuel, Forall well_formed_step p -> Forall (readable_step up) p -> length p < fuel ->
  read_columns fuel (least a) (body a (ref_side up case) p) (body a (hyp_side up case) p) (body a mark p) = Some (map (meant up case) p).
Proof.
  induction p as [|s p IH]; intros fuel W R L; (destruct fuel as [|fuel]; [lia|]); cbn [read_columns]; [reflexivity|].
  destruct (sides up case a s (Forall_inv W) (Forall_inv R)) as (B1 & B2 & B3 & E & Lm & St). rewrite !body_cons, !token_fill by assumption. rewrite <- E, !skip_fill by lia. rewrite St.
  rewrite IH; [|eapply Forall_inv_tail; eassumption|eapply Forall_inv_tail; eassumption|cbn in L; lia].
  destruct ((fill (col a s) (ref_side up case s) ++ blanks 1) ++ body a (ref_side up case) p) eqn:X; [|reflexivity].
  apply (f_equal (@length N)) in X. rewrite !app_length in X. cbn in X. lia.
Qed.
Lemma body_long a f p : length p <= length (body a f p).
Proof. induction p as [|s p IH]; [apply Nat.le_refl|]. rewrite body_cons, !app_length. cbn [length]. change (length (blanks 1)) with 1. lia. Qed.
Lemma after_app p l : after p (p ++ l) = Some l.
Proof. induction p as [|b p IH]; [reflexivity|]. cbn [app after]. rewrite N.eqb_refl. exact IH. Qed.
Lemma read_lines_ok up n a first p : Forall well_formed_step p -> Forall (readable_step up) p ->
  read_lines (least a) first (map (row a first p) (lines up n a)) = Some (map (meant up (at_case a)) p).
Proof.
  intros W R. unfold read_lines.
  assert (X : titled (before first ++ txt "REF:  ") (map (row a first p) (lines up n a)) = Some (body a (ref_side up (at_case a)) p)
    /\ titled (before first ++ txt "HYP:  ") (map (row a first p) (lines up n a)) = Some (body a (hyp_side up (at_case a)) p)
    /\ titled (before first ++ txt "Eval: ") (map (row a first p) (lines up n a)) = Some (body a mark p)).
  { unfold lines. rewrite !map_app. unfold row, only. fold (body a).
    destruct first, (at_rwtimes a), (at_rconf a), (at_hwtimes a), (at_hconf a), (at_rweight a), (at_hweight a); repeat split. }
  unfold before in X. destruct X as (-> & -> & ->). apply read_body; [exact W|exact R|]. pose proof (body_long a (ref_side up (at_case a)) p). lia.
Qed.
Lemma read_all_ok up n a : forall ps first, Forall (Forall well_formed_step) ps -> Forall (Forall (readable_step up)) ps ->
  read_all (least a) first (printed up n a first ps) = Some (map (meant up (at_case a)) (concat ps)).
Proof.
  induction ps as [|p ps IH]; intros first W R; [reflexivity|]. cbn [printed read_all concat].
  rewrite (read_lines_ok up n a first p (Forall_inv W) (Forall_inv R)), IH by (eapply Forall_inv_tail; eassumption). rewrite map_app. reflexivity.
Qed.
