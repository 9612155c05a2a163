(** The alternatives of a group, and the network of each. *)
From Coq Require Import List NArith ZArith Arith Bool Lia.
From Verif Require Import Base Text_Model Text_Spec Text_Proofs1 Text_Proofs2 Text_Proofs3 Word_Model Net_Model Merge_Model Anet_Model Anet_Spec Anet_Proofs1.
Import ListNotations.
Local Open Scope res_scope.

Definition ne (p : chars) : bool := match p with [] => false | _ => true end.
Definition alts_from (cur cs : chars) : list chars := filter ne (map strip (parts 0 cur cs)).
Lemma alternatives_eq cs : alternatives cs = alts_from [] cs.
Proof. reflexivity. Qed.
Lemma is_space_spc c : is_space c = spc c.
Proof. destruct c as [|b [|b' c]]; reflexivity. Qed.
Lemma is_space_ok c : is_space c = true <-> space_char c.
Proof. rewrite is_space_spc. apply spc_ok. Qed.
Lemma strip_blank cur p : Forall space_char cur -> strip (cur ++ p) = strip p.
Proof. induction 1 as [|c cur S _ IH]; [reflexivity|]. cbn [app strip]. rewrite (proj2 (is_space_ok c) S). exact IH. Qed.
Lemma strip_all cur : Forall space_char cur -> strip cur = [].
Proof. intros H. rewrite <- (app_nil_r cur), (strip_blank cur []) by exact H. reflexivity. Qed.
Lemma space_step c : space_char c -> depth [c] = 0%Z /\ c <> [47%N].
Proof. intros (b & -> & H). unfold space in H. split; [|intros E; injection E as ->; lia]. rewrite depth_cons. cbn [dstep depth]. destruct (N.eqb_spec b 123); [lia|]. destruct (N.eqb_spec b 125); lia. Qed.
Lemma alts_skip ws : forall cur X, Forall skip_piece ws -> Forall space_char cur -> exists cur', Forall space_char cur' /\ alts_from cur (ws ++ X) = alts_from cur' X.
Proof.
  induction ws as [|c ws IH]; intros cur X HS HC; [exists cur; auto|]. inversion HS as [|? ? [S|S] HS']; subst; unfold alts_from; cbn [app parts].
  - destruct (space_step c S) as [D N47]. destruct (list_eq_dec N.eq_dec c [47%N]) as [E|_]; [contradiction|]. rewrite D. apply IH; [exact HS'|]. apply Forall_app. auto.
  - destruct (list_eq_dec N.eq_dec [47%N] [47%N]) as [_|E]; [|congruence]. change (0 <=? 0)%Z with true. cbv iota. cbn [map filter]. rewrite (strip_all cur HC). cbn [ne].
    apply (IH [] X HS'). constructor.
Qed.
Lemma parts_run w : forall d cur rest, (forall p q, w = p ++ q -> q <> [] -> ~ ends_piece (d + depth p) (q ++ rest)) ->
  parts d cur (w ++ rest) = parts (d + depth w) (cur ++ w) rest.
Proof.
  induction w as [|c w IH]; intros d cur rest H; [cbn [app depth]; rewrite Z.add_0_r, app_nil_r; reflexivity|]. cbn [app parts].
  assert (H' : forall d', d' = (d + depth [c])%Z -> forall p q, w = p ++ q -> q <> [] -> ~ ends_piece (d' + depth p) (q ++ rest)).
  { intros d' -> p q E NE. replace (d + depth [c] + depth p)%Z with (d + depth (c :: p))%Z by (change (c :: p) with ([c] ++ p); rewrite depth_app; lia).
    apply H; [rewrite E; reflexivity|exact NE]. }
  assert (ED : (d + depth (c :: w))%Z = (d + depth [c] + depth w)%Z) by (change (c :: w) with ([c] ++ w); rewrite depth_app; lia).
  assert (EC : cur ++ c :: w = (cur ++ [c]) ++ w) by (rewrite <- app_assoc; reflexivity). rewrite ED, EC.
  destruct (list_eq_dec N.eq_dec c [47%N]) as [->|_].
  - destruct (Z.leb_spec d 0).
    + exfalso. apply (H [] ([47%N] :: w)); [reflexivity|congruence|]. right. cbn [depth]. split; [lia|]. exists (w ++ rest). left. reflexivity.
    + change (depth [[47%N]]) with 0%Z in *. rewrite IH by (apply H'; lia). f_equal. lia.
  - apply IH. apply H'. reflexivity.
Qed.
Definition balanced (cs : chars) : Prop := (forall p q, cs = p ++ q -> (0 <= depth p)%Z) /\ depth cs = 0%Z.
Lemma alts_piece piece rest cur : is_piece piece rest -> (forall c p, piece = c :: p -> ~ skip_piece c) -> balanced (piece ++ rest) -> Forall space_char cur ->
  alts_from cur (piece ++ rest) = piece :: alts_from [] rest /\ balanced rest.
Proof.
  intros (NE & HP & EP) HS (B1 & B2) HC. destruct piece as [|c w]; [congruence|]. pose proof (HS c w eq_refl) as NS.
  assert (E : parts 0 cur ((c :: w) ++ rest) = parts (depth (c :: w)) (cur ++ c :: w) rest).
  { cbn [app parts]. destruct (list_eq_dec N.eq_dec c [47%N]) as [->|_]; [exfalso; apply NS; right; reflexivity|]. rewrite parts_run.
    - rewrite <- app_assoc. cbn [app]. f_equal. change (c :: w) with ([c] ++ w). rewrite depth_app. lia.
    - intros p q EW NQ. replace (0 + depth [c] + depth p)%Z with (depth (c :: p)) by (change (c :: p) with ([c] ++ p); rewrite depth_app; lia).
      apply HP; [rewrite EW; reflexivity|congruence|exact NQ]. }
  pose proof (B1 (c :: w) rest eq_refl) as D0. unfold alts_from. rewrite E.
  assert (ST : strip (cur ++ c :: w) = c :: w).
  { rewrite strip_blank by exact HC. cbn [strip]. destruct (is_space c) eqn:S; [|reflexivity]. exfalso. apply NS. left. apply is_space_ok, S. }
  destruct EP as [->|(D & cs' & [->| ->])].
  - cbn [parts map filter]. rewrite ST. cbn [ne]. split; [reflexivity|]. split; [|reflexivity]. intros p q EQ. destruct p; [cbn; lia|discriminate].
  - assert (D1 : depth (c :: w) = 0%Z) by lia. rewrite D1. cbn [parts]. destruct (list_eq_dec N.eq_dec [47%N] [47%N]) as [_|X]; [|congruence].
    change (0 <=? 0)%Z with true. cbv iota. cbn [map filter strip]. rewrite ST. cbn [ne]. split; [reflexivity|]. split.
    + intros p q EQ. specialize (B1 ((c :: w) ++ p) q). rewrite depth_app in B1. rewrite EQ, app_assoc in B1. specialize (B1 eq_refl). lia.
    + rewrite depth_app in B2. lia.
  - exfalso. specialize (B1 ((c :: w) ++ [[125%N]]) cs'). rewrite <- app_assoc in B1. specialize (B1 eq_refl). rewrite depth_app in B1.
    change (depth [[125%N]]) with (-1)%Z in B1. lia.
Qed.

Section Alts.
Variable e : enc.
Variable create1 : list N -> res (net word).
Fixpoint join_all (acc : option (net word)) (ps : list chars) : res (option (net word)) :=
  match ps with
  | [] => Ok acc
  | p :: r =>
      let* sub := create1 (cstr (concat p)) in
      let* acc' := match acc with None => Ok sub | Some G2 => beside G2 sub end in
      join_all (Some acc') r
  end.
Lemma max_pos : 0 < MAXSTRING.
Proof. unfold MAXSTRING. lia. Qed.
Lemma alt_nets_ok n : forall cs fuel acc j cur, length cs <= n -> Forall (is_char e) cs -> balanced cs -> length (concat cs) < MAXSTRING -> length cs < fuel -> Forall space_char cur ->
  alt_nets e create1 fuel acc (concat cs ++ 0%N :: j) = join_all acc (alts_from cur cs).
Proof.
  induction n as [|n IH]; intros cs fuel acc j cur LN HC B LM LF HCU.
  { destruct cs; [|cbn in LN; lia]. destruct fuel; [lia|]. cbn. rewrite (strip_all cur HCU). reflexivity. }
  destruct fuel as [|f]; [lia|]. cbn [alt_nets].
  destruct cs as [|c0 cs0] eqn:ECS; [cbn; rewrite (strip_all cur HCU); reflexivity|]. rewrite <- ECS in *.
  destruct (rd_first e cs j HC) as (l & -> & Hl); [congruence|]. cbn [rbind]. unfold end_of_text. destruct (N.eqb_spec l 0); [contradiction|].
  destruct (split_while (skippable true) cs) as (ws & r & E & HW & HR).
  assert (HW' : Forall skip_piece ws) by (eapply Forall_impl; [|exact HW]; intros a; apply skippable_ok).
  destruct r as [|c r].
  - rewrite app_nil_r in E. subst ws. pose proof (piece_none e (S MAXSTRING) MAXSTRING cs j HC HW' ltac:(lia)) as PN.
    rewrite (find_alt_cap e MAXSTRING _ _ max_pos PN) by (cbn [tr_token]; intros t Et; injection Et as <-; exact max_pos). cbn [rbind tr_token tr_found tr_rest].
    destruct (alts_skip cs cur [] HW' HCU) as (cur' & HC' & EA). rewrite app_nil_r in EA. rewrite EA. unfold alts_from. cbn [parts map filter]. rewrite (strip_all cur' HC'). cbn [ne].
    destruct f; [rewrite ECS in LF; cbn in LF; lia|]. reflexivity.
  - destruct (split_piece r c) as (w & rest & -> & IP). set (piece := c :: w) in *. assert (E2 : cs = ws ++ piece ++ rest) by exact E. clear E.
    assert (NSK : forall c' p, piece = c' :: p -> ~ skip_piece c').
    { intros c' p Ep SK. unfold piece in Ep. injection Ep as <- _. apply skippable_ok in SK. congruence. }
    destruct (alts_skip ws cur (piece ++ rest) HW' HCU) as (cur' & HC' & EA). rewrite E2. rewrite EA.
    assert (B' : balanced (piece ++ rest)).
    { destruct B as [B1 B2]. assert (DW : depth ws = 0%Z).
      { clear - HW'. induction HW' as [|x ws [S|S] _ IH]; [reflexivity| |]; change (x :: ws) with ([x] ++ ws); rewrite depth_app, IH; [|subst x; reflexivity]. destruct (space_step x S) as [-> _]. reflexivity. }
      split; [|rewrite E2, depth_app in B2; lia]. intros p q EQ. specialize (B1 (ws ++ p) q). rewrite E2, EQ, <- app_assoc, depth_app in B1. specialize (B1 eq_refl). lia. }
    destruct (alts_piece piece rest cur' IP NSK B' HC') as [-> BR]. cbn [join_all].
    assert (LC : length (concat cs) = length (concat ws) + (length (concat piece) + length (concat rest))) by (rewrite E2, !concat_app, !app_length; lia).
    assert (LS : length cs = length ws + (length piece + length rest)) by (rewrite E2, !app_length; lia). assert (1 <= length piece) by (unfold piece; cbn [length]; lia). clearbody piece.
    rewrite E2 in HC. pose proof (piece_found e (S MAXSTRING) MAXSTRING ws piece rest j HC HW' IP NSK ltac:(lia)) as PF. destruct (Nat.leb_spec (length (concat piece)) MAXSTRING); [|lia].
    rewrite (find_alt_cap e MAXSTRING _ _ max_pos PF) by (cbn [tr_token]; intros t Et; injection Et as <-; lia). cbn [rbind tr_token tr_found tr_rest].
    destruct (create1 (cstr (concat piece))) as [sub| | |]; cbn [rbind]; try reflexivity.
    apply Forall_app in HC as [_ HC]. apply Forall_app in HC as [_ HC].
    destruct acc as [G2|]; [destruct (beside G2 sub) as [G3| | |]; cbn [rbind]; try reflexivity|cbn [rbind]]; (apply IH; [lia|exact HC|exact BR|lia|lia|constructor]).
Qed.
End Alts.
(** ** What the value of a group holds *)
Lemma last_brace_end v : last_brace (v ++ [125%N]) = Some (length v).
Proof. induction v as [|b v IH]; [reflexivity|]. cbn [app last_brace length]. rewrite IH. reflexivity. Qed.
Lemma inside_braces inner : inside (concat (braces inner)) = concat inner ++ [0%N; 0%N].
Proof.
  unfold inside. change (skipn 1 (concat (braces inner))) with (concat (inner ++ [[125%N]])). cbv zeta. rewrite concat_app. change (concat [[125%N]]) with [125%N]. rewrite last_brace_end.
  rewrite firstn_app, Nat.sub_diag, firstn_all. cbn [firstn]. rewrite app_nil_r, (skipn_all2 (concat inner ++ [125%N])) by (rewrite app_length; cbn [length]; lia). reflexivity.
Qed.
Lemma concat_no0 e (cs : chars) : Forall (is_char e) cs -> ~ In 0%N (concat cs).
Proof.
  intros H I. apply in_concat in I. destruct I as (c & I & J). rewrite Forall_forall in H. destruct (H c I) as (l & r & _ & _ & F). rewrite Forall_forall in F. specialize (F _ J). lia.
Qed.
Lemma strlen_ok s j : ~ In 0%N s -> strlen (s ++ 0%N :: j) = Ok (length s).
Proof.
  induction s as [|b s IH]; intros H; [reflexivity|]. cbn [app strlen length]. destruct (N.eqb_spec b 0); [exfalso; apply H; left; auto|].
  rewrite IH by (intros I; apply H; right; exact I). reflexivity.
Qed.
Lemma group_word e inner : Forall (is_char e) (braces inner) ->
  parse_word e (cstr (concat (braces inner))) = Ok {| p_text := concat (braces inner); p_tag1 := None; p_tag2 := None |}.
Proof.
  intros HC. pose proof (concat_no0 e _ HC) as N0. unfold parse_word, cstr. assert (R : rd (concat (braces inner) ++ [0%N]) = Ok 123%N) by reflexivity. rewrite R. cbn [rbind].
  change (123 =? 123)%N with true. cbv iota. rewrite strlen_ok by exact N0. cbn [rbind]. rewrite firstn_app, Nat.sub_diag, firstn_all. cbn [firstn]. rewrite app_nil_r. reflexivity.
Qed.
Lemma group_value inner : w_value (word_of {| p_text := concat (braces inner); p_tag1 := None; p_tag2 := None |}) = concat (braces inner).
Proof.
  unfold word_of, new_word. cbn [p_text w_value]. assert (LB : last (concat (braces inner)) 0%N = 125%N).
  { unfold braces. cbn [concat app]. rewrite concat_app. cbn [concat app]. change (123%N :: concat inner ++ [125%N]) with ((123%N :: concat inner) ++ [125%N]). apply last_last. }
  destruct (concat (braces inner)) as [|a [|b r]] eqn:E; try reflexivity. rewrite LB. reflexivity.
Qed.
