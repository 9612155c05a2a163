(** Proofs about the reading of RTTM files word by word. *)
From Coq Require Import String List NArith ZArith Arith Bool Ascii Lia Sorted.
From Verif Require Import Base Store_Model Store_Proofs Segm_Model Graph_Model Links_Model Links_Spec Links_Proofs Token_Model Alt_Model Alt_Spec Alt_Proofs Alt_Proofs2 AsTrn_Model AsTrn_Spec AsTrn_Proofs AsStm_Model AsStm_Spec AsStm_Proofs1 AsStm_Proofs2 Rttm_Model Rttm_Spec Rttm_Proofs1 Rttm_Proofs2 Rttm_Proofs3 Rttm_Proofs4 Rttm_Proofs5 Rttm_Proofs6 Rlex_Spec.
Import ListNotations.
Local Open Scope res_scope.
Local Notation length := List.length.

(** ** Words of a line have no special characters *)
Definition bare (w : list ascii) : Prop := Forall (fun c => is_special c = false) w.
Lemma split_special : forall l cur w, bare cur -> In w (split_from cur (flat_map (fun c => if is_special c then [" "%char; c; " "%char] else [c]) l)) ->
  bare (list_ascii_of_string w) \/ exists c, is_special c = true /\ w = string_of_list_ascii [c].
Proof.
  assert (FL : forall cur w, bare cur -> In w (match cur with [] => [] | _ => [string_of_list_ascii (rev cur)] end) -> bare (list_ascii_of_string w)).
  { intros [|c cur] w C H; [destruct H|]. destruct H as [<-|[]]. rewrite list_ascii_of_string_of_list_ascii. apply Forall_forall. intros x Hx. apply in_rev in Hx. exact (proj1 (Forall_forall _ _) C x Hx). }
  induction l as [|c l IH]; intros cur w C H.
  - cbn [flat_map split_from] in H. left. exact (FL cur w C H).
  - cbn [flat_map] in H. destruct (is_special c) eqn:SP; cbn [app] in H.
    + assert (SC : is_sep c = false). { unfold is_special in SP. rewrite !orb_true_iff in SP. destruct SP as [[[SP|SP]|SP]|SP]; apply Ascii.eqb_eq in SP; subst c; reflexivity. }
      assert (E : split_from cur (" "%char :: c :: " "%char :: flat_map (fun c => if is_special c then [" "%char; c; " "%char] else [c]) l)
        = (match cur with [] => [] | _ => [string_of_list_ascii (rev cur)] end) ++ [string_of_list_ascii [c]] ++ split_from [] (flat_map (fun c => if is_special c then [" "%char; c; " "%char] else [c]) l)).
      { cbn [split_from]. rewrite SC. reflexivity. }
      rewrite E in H. apply in_app_iff in H. destruct H as [H|H]; [left; exact (FL cur w C H)|]. destruct H as [<-|H]; [right; exists c; auto|]. exact (IH [] w (Forall_nil _) H).
    + cbn [split_from] in H. destruct (is_sep c).
      * apply in_app_iff in H. destruct H as [H|H]; [left; exact (FL cur w C H)|exact (IH [] w (Forall_nil _) H)].
      * apply (IH (c :: cur) w); [constructor; assumption|exact H].
Qed.
Lemma split_chars : forall l cur w x, In w (split_from cur l) -> In x (list_ascii_of_string w) -> In x cur \/ In x l.
Proof.
  assert (FL : forall cur w x, In w (match cur with [] => [] | _ => [string_of_list_ascii (rev cur)] end) -> In x (list_ascii_of_string w) -> In x cur).
  { intros [|c cur] w x H; [destruct H|]. destruct H as [<-|[]]. rewrite list_ascii_of_string_of_list_ascii. intros K. apply in_rev in K. exact K. }
  induction l as [|c l IH]; intros cur w x H X.
  - cbn [split_from] in H. left. exact (FL cur w x H X).
  - cbn [split_from] in H. destruct (is_sep c).
    + apply in_app_iff in H. destruct H as [H|H]; [left; exact (FL cur w x H X)|]. destruct (IH [] w x H X) as [[]|K]. right. right. exact K.
    + destruct (IH (c :: cur) w x H X) as [[<-|K]|K]; [right; left; reflexivity|left; exact K|right; right; exact K].
Qed.
Lemma replaced_char a b : a <> b -> forall l, ~ In a (replace_char a b l).
Proof.
  intros NE l H. unfold replace_char in H. apply in_map_iff in H. destruct H as (c & E & _). destruct (Ascii.eqb_spec c a); congruence.
Qed.
Lemma said_words : (forall i w, says_item i w -> forall x, In x w -> In x (print_item i)) /\ (forall s w, says_seq s w -> forall x, In x w -> In x (print_seq s)) /\ (forall a w, says_alts a w -> forall x, In x w -> In x (print_alts a)).
Proof.
  apply alt_mutind.
  - intros v w H x Hx. inversion H; subst. exact Hx.
  - intros w H x Hx. inversion H; subst. destruct Hx.
  - intros a IH w H x Hx. inversion H; subst. cbn [print_item]. right. apply in_app_iff. left. exact (IH w ltac:(assumption) x Hx).
  - intros w H x Hx. inversion H; subst. destruct Hx.
  - intros i IHi s IHs w H x Hx. inversion H; subst. cbn [print_seq]. apply in_app_iff. apply in_app_iff in Hx. destruct Hx as [Hx|Hx]; [left; eapply IHi; eassumption|right; eapply IHs; eassumption].
  - intros s IH w H x Hx. inversion H; subst. cbn [print_alts]. eapply IH; eassumption.
  - intros s IHs a IHa w H x Hx. cbn [print_alts]. apply in_app_iff. inversion H; subst; [left; eapply IHs; eassumption|right; right; eapply IHa; eassumption].
Qed.
Lemma said_plain : (forall i, ok_item i -> forall w, says_item i w -> forall x, In x w -> plain x) /\ (forall s, ok_seq s -> forall w, says_seq s w -> forall x, In x w -> plain x)
  /\ (forall a, ok_line a \/ ok_inner a -> forall w, says_alts a w -> forall x, In x w -> plain x).
Proof.
  apply alt_mutind.
  - intros v OK w H x Hx. inversion H; subst. destruct Hx as [<-|[]]. exact OK.
  - intros _ w H x Hx. inversion H; subst. destruct Hx.
  - intros a IH (_ & OK) w H x Hx. inversion H; subst. exact (IH (or_intror OK) w ltac:(assumption) x Hx).
  - intros _ w H x Hx. inversion H; subst. destruct Hx.
  - intros i IHi s IHs (O1 & O2) w H x Hx. inversion H; subst. apply in_app_iff in Hx. destruct Hx as [Hx|Hx]; [eapply IHi; eassumption|eapply IHs; eassumption].
  - intros s IH OK w H x Hx. inversion H; subst. assert (O : ok_seq s) by (destruct OK as [OK|(_ & OK)]; exact OK). eapply IH; eassumption.
  - intros s IHs a IHa OK w H x Hx. assert (O : ok_seq s /\ (ok_line a \/ ok_inner a)) by (destruct OK as [(A & B)|((_ & A) & B)]; auto). inversion H; subst; [eapply IHs; [apply O|eassumption|exact Hx]|eapply IHa; [apply O|eassumption|exact Hx]].
Qed.
(** A word that is read has neither braces nor underscores. *)
Definition unmarked (w : list ascii) : Prop := ~ In "{"%char w /\ ~ In "_"%char w.
Lemma said_unmarked s a w x : as_line s = print_alts a -> ok_line a -> says_alts a w -> In x w -> x <> EmptyString /\ unmarked (list_ascii_of_string x).
Proof.
  intros E OK SA IX. pose proof (proj2 (proj2 said_plain) a (or_introl OK) w SA x IX) as (NE & P1 & P2 & P3 & P4). pose proof (proj2 (proj2 said_words) a w SA x IX) as IP. rewrite <- E in IP. unfold as_line, lex, split_words in IP. split; [exact NE|]. split; intros K.
  - destruct (split_special _ [] x (Forall_nil _) IP) as [B|(c & SC & ->)].
    + unfold bare in B. rewrite Forall_forall in B. specialize (B _ K). discriminate.
    + destruct K as [K|[]]. subst c. apply P1. reflexivity.
  - destruct (split_chars _ [] x "_"%char IP K) as [[]|H]. apply in_flat_map in H. destruct H as (c & IC & H). assert (c = "_"%char). { destruct (is_special c); [destruct H as [H|[H|[H|[]]]]; [discriminate|exact H|discriminate]|destruct H as [H|[]]; exact H]. } subst c.
    unfold replace_char at 1 in IC. apply in_map_iff in IC. destruct IC as (c & EC & IC). destruct (Ascii.eqb c "#"); [discriminate|]. rewrite EC in IC. exact (replaced_char "_" " " ltac:(discriminate) s IC).
Qed.
Lemma unmarked_parens opt w : unmarked (list_ascii_of_string w) -> unmarked (list_ascii_of_string (in_parens opt w)).
Proof.
  unfold in_parens. destruct opt; [|auto]. rewrite list_ascii_of_string_of_list_ascii. intros (A & B). split; rewrite !in_app_iff; intros [[K|[]]|[K|[K|[]]]]; try discriminate; contradiction.
Qed.
Lemma source_parens t : string_of_list_ascii (source t) = in_parens (at_opt t) (at_text t).
Proof. unfold source, in_parens. destruct (at_opt t); [reflexivity|apply string_of_list_ascii_of_string]. Qed.

(** ** Nothing is expanded *)
Definition quiet (t : atok) : Prop := source t <> [] /\ unmarked (source t).
Lemma expand_quiet o fuel st s t : quiet (nth t (ps_toks st) no_tok) -> expand_token o fuel st s t = Ok (st, s).
Proof.
  intros (NE & U1 & U2). unfold expand_token. cbv zeta. destruct (get_text_total o _ NE) as (text & tk & -> & IN). cbn [rbind].
  assert (M : marked text = false). { unfold marked. apply andb_false_intro1. apply not_true_iff_false. rewrite existsb_exists. intros (c & IC & E). apply IN in IC. apply orb_true_iff in E. destruct E as [E|E]; apply Ascii.eqb_eq in E; subst c; contradiction. }
  rewrite M. reflexivity.
Qed.
Lemma expand_none o fuel st s : wf st -> (forall t, In t (sg_first s) -> t < length (ps_toks st)) -> Forall quiet (ps_toks st) -> expand_segment o fuel st s = Ok (st, s).
Proof.
  intros (_ & W) LF Q. unfold expand_segment. destruct (flatten_spec (nxt (ps_links st)) s (seq 0 (length (ps_toks st))) (S (length (ps_toks st)))) as (l & -> & TS & _).
  { intros a _ b Hb. apply in_seq. destruct (W a b Hb). lia. }
  { intros t Ht. apply in_seq. specialize (LF t Ht). lia. }
  { rewrite seq_length. lia. }
  assert (L : forall t, In t l -> t < length (ps_toks st)).
  { intros t Ht. apply TS in Ht. destruct Ht as (f & IF & R). induction R as [|b c R IH NB E]; [exact (LF f IF)|]. destruct (W b c E). assumption. }
  cbn [rbind]. clear TS. induction l as [|t l IH]; [reflexivity|]. cbn [expand_tokens]. rewrite expand_quiet; [cbn [rbind]; apply IH; intros u Hu; apply L; right; exact Hu|].
  rewrite Forall_forall in Q. apply Q, nth_In, L. left. reflexivity.
Qed.
Lemma expand_nothing o fuel st set : wf st -> Forall quiet (ps_toks st) -> (forall l x t, In l set -> In x l -> In t (sg_first (r_seg x)) -> t < length (ps_toks st)) -> expand_set o fuel st set = Ok (st, set).
Proof.
  intros W Q. induction set as [|l set IH]; intros L; [reflexivity|]. cbn [expand_set].
  assert (E : expand_speech o fuel st l = Ok (st, l)).
  { assert (K := fun x t => L l x t (or_introl eq_refl)). clear IH L. induction l as [|x l IH]; [reflexivity|]. cbn [expand_speech]. rewrite expand_none; [|exact W|intros t; apply K; left; reflexivity|exact Q]. cbn [rbind]. rewrite IH by (intros y t Hy; apply K; right; exact Hy). destruct x; reflexivity. }
  rewrite E. cbn [rbind]. rewrite IH by (intros l' x t Hl; apply (L l' x t); right; exact Hl). reflexivity.
Qed.
