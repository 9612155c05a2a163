(** Proofs about Read_Model: the window of the hypothesis. *)
From Coq Require Import List NArith ZArith Arith Bool Lia.
From Verif Require Import Base Chan_Model Chan_Spec Chan_Proofs Read_Model Read_Spec Read_Proofs Read_Proofs3.
Import ListNotations.
Local Open Scope res_scope.
Local Open Scope Z_scope.

(** The flag for the next word left by the words before it. *)
Definition left_flag (m : list mword) : bool :=
  match m with [] => false | d :: _ => alternate (last m d) && negb (is_end (last m d)) end.
Lemma last_map {A B} (g : A -> B) (l : list A) d : last (map g l) (g d) = g (last l d).
Proof. induction l as [|a [|b l] IH]; [reflexivity|reflexivity|]. cbn [map last] in *. exact IH. Qed.
Lemma last_default {A} (l : list A) d d' : l <> [] -> last l d = last l d'.
Proof. induction l as [|a [|b l] IH]; intros NE; [congruence|reflexivity|]. cbn [last]. apply IH. discriminate. Qed.
Lemma left_flag_app m x : left_flag (m ++ [x]) = alternate x && negb (is_end x).
Proof.
  unfold left_flag. destruct (m ++ [x]) as [|d r] eqn:E; [destruct m; discriminate|]. rewrite <- E, last_last. reflexivity.
Qed.
Lemma left_flag_skip m (k : nat) : (k < length m)%nat -> left_flag (skipn k m) = left_flag m.
Proof.
  intros L. assert (NE : skipn k m <> []) by (intro E; apply (f_equal (@length mword)) in E; rewrite skipn_length in E; cbn [length] in E; lia).
  assert (NE' : m <> []) by (intros ->; rewrite skipn_nil in NE; congruence).
  destruct m as [|a m]; [congruence|]. rewrite <- (firstn_skipn k (a :: m)) at 2.
  rewrite (app_removelast_last a NE), app_assoc, !left_flag_app. reflexivity.
Qed.

Section Ctm.
  Variable numC : str -> Z.
  Variable cs : bool.
  Notation CtmFile := (CtmFile numC cs).
  Notation marks := (map c_mword).

  Lemma ctm_nil b : CtmFile [] b -> b = [].
  Proof. intros F. inversion F as [|l r ws L NL F' E1|l r w ws L SK P F' E1]; [reflexivity| |]; destruct L as (NE & _); (destruct l; [congruence|discriminate E1]). Qed.

  Lemma with_alternate_mark words (w : cword) rem :
    mark_alternates (left_flag (marks words)) (the_word w :: rem) =
    c_mword (with_alternate words w) :: mark_alternates (left_flag (marks (words ++ [with_alternate words w]))) rem.
  Proof.
    cbn [mark_alternates]. rewrite map_app. cbn [map]. rewrite left_flag_app.
    assert (E : left_flag (marks words) || is_marker (the_word w) = alternate (c_mword (with_alternate words w))).
    { unfold with_alternate, left_flag. destruct words as [|d r]; [reflexivity|]. cbn [c_mword alternate map].
      change (c_mword d :: map c_mword r) with (map c_mword (d :: r)). rewrite last_map. reflexivity. }
    rewrite E. reflexivity.
  Qed.

  Definition key_differs (words : list cword) : Prop :=
    match words with [] => False | d :: _ => conv (last words d) <> conv d end.
  (** The window is not full unless it holds words of two files. *)
  Definition room (max : Z) (words : list cword) : Prop :=
    4 <= max /\ Z.of_nat (length words) <= max - 1 /\ (max - 1 <= Z.of_nat (length words) -> key_differs words).

  Lemma grow_more max : 4 <= max -> max + 1 <= grow max.
  Proof. intros H. unfold grow. apply Z.div_le_lower_bound; lia. Qed.
  Lemma expand_room max words : 4 <= max -> Z.of_nat (length words) <= max - 1 -> room (expand max words) words.
  Proof.
    intros M L. unfold expand, room. destruct words as [|d r].
    - cbn [length] in *. repeat split; [assumption|lia|lia].
    - destruct (Z.leb_spec (max - 1) (Z.of_nat (length (d :: r)))) as [G|G]; cbn [andb].
      + destruct (str_eqb (conv (last (d :: r) d)) (conv d)) eqn:E.
        * pose proof (grow_more max M). repeat split; lia.
        * repeat split; [assumption|lia|]. intros _ X. apply str_eqb_iff in X. congruence.
      + repeat split; [assumption|lia|lia].
  Qed.

  Lemma mark_loop fuel : forall f rem max words, CtmFile (rest f) rem -> fine f -> room max words ->
    (length (rest f) < fuel)%nat ->
    exists a max' f' rem' e, fill_mark_loop numC fuel cs f max words = Ok (words ++ a, max', f', e) /\
      CtmFile (rest f') rem' /\ fine f' /\ room max' (words ++ a) /\
      mark_alternates (left_flag (marks words)) rem = marks a ++ mark_alternates (left_flag (marks (words ++ a))) rem' /\
      (length (rest f') <= length (rest f))%nat /\
      (e = true -> feof f' = true /\ rem' = []) /\ (e = false -> max' - 1 <= Z.of_nat (length (words ++ a))) /\
      (Z.of_nat (length words) < max - 1 -> e = true \/ (length (rest f') < length (rest f))%nat).
  Proof.
    induction fuel as [|n IH]; intros f rem max words F FI R L; [lia|]. cbn [fill_mark_loop].
    destruct (Z.ltb_spec (Z.of_nat (length words)) (max - 1)) as [LM|LM].
    - inversion F as [E1 E2|l r ws HL SC F' E1 E2|l r w ws HL SC P F' E1 E2].
      + subst rem. unfold get_line. rewrite <- E1.
        exists [], max, {| rest := []; feof := true |}, [], true. rewrite app_nil_r.
        split; [reflexivity|]. split; [constructor|]. split; [intros _; reflexivity|]. split; [exact R|]. split; [reflexivity|].
        split; [cbn [rest length]; lia|]. split; [auto|]. split; [discriminate|auto].
      + subst ws. destruct (get_line_spec f l r) as [-> HN]; [congruence|exact HL|].
        assert (LL : length (rest f) = (length l + length r)%nat) by (rewrite <- E1, app_length; reflexivity). clear F.
        destruct l as [|c l]; [discriminate SC|]. cbn [hd_error] in SC. injection SC as ->.
        cbn [rbind N.eqb Pos.eqb].
        set (f1 := {| rest := r; feof := _ |}).
        assert (FI1 : fine f1).
        { unfold fine, f1. cbn [feof rest]. intro E. apply orb_true_iff in E. destruct E as [E|E].
          - specialize (FI E). rewrite FI in E1. discriminate E1.
          - destruct HN as [HN|[_ HN]]; [rewrite (newline_last _ HN) in E; discriminate|exact HN]. }
        destruct R as (R1 & R2 & R3).
        destruct (IH f1 rem (expand max words) words F' FI1) as (a & max' & f' & rem' & e & -> & A1 & A2 & A3 & A4 & A5 & A6 & A7 & A8).
        { apply expand_room; assumption. } { unfold f1. cbn [rest length] in *. lia. }
        exists a, max', f', rem', e. unfold f1 in A5. cbn [rest length] in *. rewrite ?E1. 
        repeat (split; [first [assumption|reflexivity|lia]|]). right. lia.
      + subst rem. destruct (get_line_spec f l r) as [-> HN]; [congruence|exact HL|].
        assert (LL : length (rest f) = (length l + length r)%nat) by (rewrite <- E1, app_length; reflexivity). clear F.
        destruct l as [|c l]; [destruct HL; congruence|]. cbn [hd_error] in SC.
        rewrite (proj2 (N.eqb_neq c 59)) by congruence. rewrite P. cbn [rbind].
        set (f1 := {| rest := r; feof := _ |}).
        assert (FI1 : fine f1).
        { unfold fine, f1. cbn [feof rest]. intro E. apply orb_true_iff in E. destruct E as [E|E].
          - specialize (FI E). rewrite FI in E1. discriminate E1.
          - destruct HN as [HN|[_ HN]]; [rewrite (newline_last _ HN) in E; discriminate|exact HN]. }
        destruct R as (R1 & R2 & R3).
        set (x := with_alternate words w).
        destruct (IH f1 ws (expand max (words ++ [x])) (words ++ [x]) F' FI1) as (a & max' & f' & rem' & e & -> & A1 & A2 & A3 & A4 & A5 & A6 & A7 & A8).
        { apply expand_room; [assumption|]. rewrite app_length. cbn [length]. lia. } { unfold f1. cbn [rest length] in *. lia. }
        exists (x :: a), max', f', rem', e. unfold f1 in A5. rewrite <- app_assoc in *. cbn [app rest length] in *.
        split; [reflexivity|]. split; [exact A1|]. split; [exact A2|]. split; [exact A3|].
        split; [rewrite with_alternate_mark; fold x; rewrite A4; reflexivity|].
        rewrite app_length. split; [lia|]. split; [exact A6|]. split; [exact A7|]. right. lia.
    - exists [], max, f, rem, false. rewrite app_nil_r. cbn [map app].
      split; [reflexivity|]. split; [exact F|]. split; [exact FI|]. split; [exact R|]. split; [reflexivity|].
      split; [lia|]. split; [discriminate|]. split; [intros _; exact LM|lia].
  Qed.

  (** What is ahead of s. *)
  Definition w_ahead (w : cwin) : list mword := skipn (Z.to_nat (w_s w - 1)) (marks (w_words w)).
  Definition conv_change (L : list mword) : Prop :=
    exists k x y z, L = (k :: x) ++ y :: z /\ Forall (fun s : mword => conv s = conv k) x /\ conv y <> conv k.

  Lemma locate_conv_change (w : cwin) : 1 <= w_s w ->
    locate_conv (map (fun x => the_word (c_mword x)) (w_words w)) (w_s w) <> Z.of_nat (length (w_words w)) -> conv_change (w_ahead w).
  Proof.
    intros LE NE. unfold locate_conv in NE. rewrite map_length in NE.
    destruct (Z.eqb_spec (w_s w) (Z.of_nat (length (w_words w)))) as [E|E]; [congruence|].
    assert (EM : map (fun x => the_word (c_mword x)) (w_words w) = map the_word (marks (w_words w))) by (rewrite map_map; reflexivity).
    rewrite EM, skipn_map in NE. fold (w_ahead w) in NE. destruct (w_ahead w) as [|k r]; [cbn [map] in NE; congruence|].
    cbn [map] in NE. change (the_word k :: map the_word r) with (map the_word (k :: r)) in NE.
    destruct (change_at _ (w_s w) (map the_word (k :: r))) as [e|] eqn:C; [|congruence].
    destruct (change_some _ _ _ _ C) as (a & b & c & Em & Fa & Sb).
    apply map_eq_app in Em. destruct Em as (a1 & r1 & Ek & <- & Er). destruct r1 as [|y z]; [discriminate Er|]. injection Er as <- <-.
    assert (HB : conv y <> conv k) by (intro X; rewrite X in Sb; rewrite (proj2 (str_eqb_iff _ _) eq_refl) in Sb; discriminate).
    destruct a1 as [|k' x].
    - injection Ek as -> _. congruence.
    - injection Ek as <- ->. exists k, x, y, z. split; [reflexivity|]. split; [|exact HB].
      rewrite Forall_forall in *. intros s Hs. symmetry. apply str_eqb_iff. apply Fa. apply in_map. right. exact Hs.
  Qed.
  (** No change seen from the first word: the last one has the same file. *)
  Lemma change_none {A} (same : A -> bool) l : forall x, change_at same x l = None -> Forall (fun s => same s = true) l.
  Proof. induction l as [|s l IH]; intros x E; constructor; cbn [change_at] in E; destruct (same s); eauto; discriminate. Qed.
  Lemma change_range {A} (same : A -> bool) l : forall x e, change_at same x l = Some e -> e < x + Z.of_nat (length l) - 1.
  Proof.
    induction l as [|s l IH]; intros x e E; [discriminate|]. cbn [change_at] in E. cbn [length].
    destruct (same s); [apply IH in E; lia|injection E as <-; lia].
  Qed.
  Lemma last_same (words : list cword) d r : words = d :: r ->
    locate_conv (map (fun x => the_word (c_mword x)) words) 1 = Z.of_nat (length words) -> conv (last words d) = conv d.
  Proof.
    intros -> E. unfold locate_conv in E. rewrite map_length in E.
    destruct (Z.eqb_spec 1 (Z.of_nat (length (d :: r)))) as [E1|E1].
    - destruct r; [reflexivity|]. cbn [length] in E1. lia.
    - change (Z.to_nat (1 - 1)) with O in E. cbn [skipn map] in E.
      change (the_word (c_mword d) :: map (fun x => the_word (c_mword x)) r) with (map (fun x => the_word (c_mword x)) (d :: r)) in E.
      destruct (change_at _ 1 (map _ (d :: r))) as [e|] eqn:C.
      + exfalso. cbn [map change_at] in C. rewrite (proj2 (str_eqb_iff _ _) eq_refl) in C. apply change_range in C. rewrite map_length in C. cbn [length] in E. lia.
      + apply change_none in C. rewrite Forall_forall in C.
        symmetry. apply str_eqb_iff. apply C. apply (in_map (fun x => the_word (c_mword x))).
        rewrite (app_removelast_last d (l := d :: r) ltac:(discriminate)) at 2. apply in_or_app. right. left. reflexivity.
  Qed.

  Lemma wtoke fuel : forall w f rem (eof : bool), CtmFile (rest f) rem -> fine f -> room (w_max w) (w_words w) -> 1 <= w_s w ->
    (eof = true -> feof f = true) -> (feof f = true -> eof = true \/ w_s w <= Z.of_nat (length (w_words w)) \/ w_words w = [] /\ w_s w = 1) ->
    (feof f = true \/ w_s w <= Z.of_nat (length (w_words w)) \/ (w_words w = [] /\ w_s w = 1)) ->
    ((if eof then 0 else S (length (rest f))) < fuel)%nat ->
    exists w' f' rem', fill_WTOKE_loop numC fuel cs w f eof = Ok (w', f') /\
      CtmFile (rest f') rem' /\ fine f' /\ room (w_max w') (w_words w') /\ 1 <= w_s w' /\
      w_ahead w ++ mark_alternates (left_flag (marks (w_words w))) rem = w_ahead w' ++ mark_alternates (left_flag (marks (w_words w'))) rem' /\
      ((feof f' = true /\ rem' = [] /\ (w_s w <= Z.of_nat (length (w_words w)) + 1 -> w_s w' <= Z.of_nat (length (w_words w')) + 1)) \/ conv_change (w_ahead w')).
  Proof.
    induction fuel as [|n IH]; intros w f rem eof F FI R S1 EE EE2 SB L; [lia|]. cbn [fill_WTOKE_loop].
    set (e := locate_conv _ (w_s w)).
    destruct eof.
    - cbn [negb]. rewrite andb_false_r. specialize (EE eq_refl). exists w, f, rem. 
      assert (rem = []) by (apply ctm_nil; rewrite <- (FI EE); exact F).
      split; [reflexivity|]. split; [exact F|]. split; [exact FI|]. split; [exact R|]. split; [exact S1|]. split; [reflexivity|]. left; auto.
    - cbn [negb]. rewrite andb_true_r. destruct (Z.eqb_spec e (Z.of_nat (length (w_words w)))) as [Ee|Ee].
      + unfold fill_mark_struct. set (words := if 1 <? w_s w then _ else w_words w).
        assert (SB' : w_s w <= Z.of_nat (length (w_words w)) \/ (w_words w = [] /\ w_s w = 1)).
        { destruct SB as [SB|SB]; [|exact SB]. destruct (EE2 SB) as [X|X]; [discriminate X|exact X]. }
        assert (W : marks words = w_ahead w /\ left_flag (marks words) = left_flag (marks (w_words w)) /\ room (w_max w) words /\
                    Z.of_nat (length words) < w_max w - 1).
        { subst words. unfold w_ahead. destruct R as (R1 & R2 & R3). destruct (Z.ltb_spec 1 (w_s w)) as [G|G].
          - destruct SB' as [SB'|[_ SB']]; [|lia].
            split; [rewrite skipn_map; reflexivity|]. split.
            { rewrite <- skipn_map. apply left_flag_skip. rewrite map_length. lia. }
            assert (LS : Z.of_nat (length (skipn (Z.to_nat (w_s w - 1)) (w_words w))) < w_max w - 1) by (rewrite skipn_length; lia).
            split; [|exact LS]. repeat split; [exact R1|lia|lia].
          - assert (E1 : w_s w = 1) by lia. rewrite E1. cbn [Z.to_nat Z.sub Z.add Z.opp Z.pos_sub skipn].
            split; [reflexivity|]. split; [reflexivity|]. split; [repeat split; assumption|].
            destruct (Z.ltb_spec (Z.of_nat (length (w_words w))) (w_max w - 1)) as [X|X]; [exact X|exfalso].
            specialize (R3 X). unfold key_differs in R3. destruct (w_words w) as [|d r] eqn:EW; [exact R3|].
            apply R3. apply (last_same (d :: r) d r eq_refl). unfold e in Ee. rewrite E1 in Ee. exact Ee. }
        destruct W as (W1 & W2 & W3 & W4). clearbody words.
        destruct (mark_loop (S (S (length (rest f)))) f rem (w_max w) words F FI W3 ltac:(lia)) as (a & max' & f' & rem' & e' & -> & A1 & A2 & A3 & A4 & A5 & A6 & A7 & A8).
        cbn [rbind].
        set (w3 := {| w_max := max'; w_s := 1; w_words := words ++ a |}).
        assert (H3 : w_ahead w3 = w_ahead w ++ marks a) by (unfold w_ahead at 1, w3; cbn [w_s w_words]; change (Z.to_nat (1 - 1)) with O; cbn [skipn]; rewrite map_app, W1; reflexivity).
        assert (S3 : w_s w3 <= Z.of_nat (length (w_words w3)) \/ (w_words w3 = [] /\ w_s w3 = 1)).
        { unfold w3. cbn [w_s w_words]. destruct (words ++ a); [right; auto|left; cbn [length]; lia]. }
        destruct (IH w3 f' rem' (if e' then true else false) A1 A2) as (w' & f2 & rem2 & E2 & B1 & B2 & B3 & B4 & B5 & B6).
        { exact A3. } { unfold w3. cbn [w_s]. lia. }
        { intro X. destruct e'; [apply A6; reflexivity|discriminate]. }
        { intros _. right. exact S3. } { right. exact S3. }
        { destruct e'; [lia|]. destruct (A8 W4) as [X|X]; [discriminate|lia]. }
        rewrite E2. exists w', f2, rem2. split; [reflexivity|]. split; [exact B1|]. split; [exact B2|]. split; [exact B3|]. split; [exact B4|].
        split.
        { rewrite <- W2, A4, app_assoc, <- H3. exact B5. }
        destruct B6 as [(X1 & X2 & X3)|X]; [left|right; exact X]. split; [exact X1|]. split; [exact X2|]. intros _. apply X3.
        unfold w3. cbn [w_s w_words]. lia.
      + exists w, f, rem. split; [reflexivity|]. split; [exact F|]. split; [exact FI|]. split; [exact R|]. split; [exact S1|]. split; [reflexivity|].
        right. apply locate_conv_change; assumption.
  Qed.
End Ctm.
