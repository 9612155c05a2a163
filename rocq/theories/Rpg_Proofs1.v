(** Proofs about the texts of cells. *)
From Coq Require Import List Arith ZArith NArith Bool Lia.
From Verif Require Import Base Rpg_Model Rpg_Spec.
Import ListNotations.
Local Open Scope nat_scope.

(** ** Where a text is cut *)
Definition cut (l : list N) : nat := stop (length l) l.
Lemma cut_nil : cut [] = 0. Proof. reflexivity. Qed.
Lemma cut_cons : forall c r, cut (c :: r) = if slashes (c :: r) then 0 else S (cut r).
Proof. intros. unfold cut. cbn [stop length]. reflexivity. Qed.
Lemma stop_cut : forall w l, stop w l = Nat.min w (cut l).
Proof.
  induction w as [|w IH]; intros [|c r].
  - reflexivity.
  - cbn [stop]. reflexivity.
  - cbn [stop]. rewrite cut_nil. reflexivity.
  - rewrite cut_cons. cbn [stop]. destruct (slashes (c :: r)); [reflexivity|]. rewrite IH. reflexivity.
Qed.
Lemma cut_le : forall l, cut l <= length l.
Proof. induction l as [|c r IH]; [cbn; lia|]. rewrite cut_cons. cbn [length]. destruct (slashes _); lia. Qed.
Lemma skip_cut : forall l, skipn (cut l) l = [] \/ slashes (skipn (cut l) l) = true.
Proof.
  induction l as [|c r IH]; [left; reflexivity|]. rewrite cut_cons. destruct (slashes (c :: r)) eqn:E.
  - right. exact E.
  - exact IH.
Qed.
Lemma before_cut : forall l k, k < cut l -> slashes (skipn k l) = false /\ skipn k l <> [].
Proof.
  induction l as [|c r IH]; intros k H; [cbn in H; lia|]. rewrite cut_cons in H.
  destruct (slashes (c :: r)) eqn:E; [lia|]. destruct k as [|k]; [split; [exact E|discriminate]|]. apply (IH k). lia.
Qed.
Lemma cut_slashes : forall l k, k <= cut l -> slashes (skipn k l) = true -> k = cut l.
Proof. intros l k H S. destruct (Nat.eq_dec k (cut l)); [assumption|]. destruct (before_cut l k); [lia|]. congruence. Qed.
Lemma cut_skip : forall l k, k <= cut l -> cut (skipn k l) = cut l - k.
Proof.
  induction l as [|c r IH]; intros k H. { cbn in H. assert (k = 0) by lia. subst. reflexivity. }
  destruct k as [|k]; [cbn [skipn]; lia|]. rewrite cut_cons in H. rewrite cut_cons. destruct (slashes (c :: r)); [lia|].
  cbn [skipn]. rewrite IH by lia. reflexivity.
Qed.

(** ** Measuring *)
(** the text after a // as it is measured *)
Definition trim (l : list N) : list N := match l with b :: r => if (b =? 32)%N then r else l | [] => [] end.
Lemma measure_cons : forall up x m c r, measure up x m (c :: r) =
  if slashes (c :: r) then measure up 0 (Nat.max m x) (trim (tl r))
  else if up && (c =? 32)%N then measure up 0 (Nat.max m x) r else measure up (S x) m r.
Proof.
  intros up x m c r. destruct r as [|d [|b r]].
  - reflexivity.
  - cbn [measure]. destruct (slashes [c; d]); [cbn; lia|reflexivity].
  - change (measure up x m (c :: d :: b :: r)) with
      (if slashes (c :: d :: b :: r) then (if (b =? 32)%N then measure up 0 (Nat.max m x) r else measure up 0 (Nat.max m x) (b :: r))
       else if up && (c =? 32)%N then measure up 0 (Nat.max m x) (d :: b :: r) else measure up (S x) m (d :: b :: r)).
    cbn [trim tl]. destruct (slashes (c :: d :: b :: r)); [|reflexivity]. destruct (b =? 32)%N; reflexivity.
Qed.
Lemma measure_ind : forall (P : list N -> Prop), P [] ->
  (forall c r, slashes (c :: r) = true -> P (trim (tl r)) -> P (c :: r)) ->
  (forall c r, slashes (c :: r) = false -> P r -> P (c :: r)) -> forall l, P l.
Proof.
  intros P H0 H1 H2. assert (H : forall n l, length l <= n -> P l).
  { induction n as [|n IH]; intros l L. { destruct l; [exact H0|cbn in L; lia]. }
    destruct l as [|c r]; [exact H0|]. destruct (slashes (c :: r)) eqn:E.
    - apply H1; [exact E|]. apply IH. cbn [length] in L. destruct r as [|d r]; [cbn; lia|]. cbn [tl].
      destruct r as [|b r]; [cbn; lia|]. cbn [trim]. cbn [length] in L. destruct (b =? 32)%N; cbn [length]; lia.
    - apply H2; [exact E|]. apply IH. cbn [length] in L. lia. }
  intros l. apply (H (length l)). lia.
Qed.
Lemma measure_max : forall up l x m, measure up x m l = Nat.max m (measure up x 0 l).
Proof.
  intros up. apply (measure_ind (fun l => forall x m, measure up x m l = Nat.max m (measure up x 0 l))).
  - intros. cbn [measure]. lia.
  - intros c r E IH x m. rewrite !measure_cons, E. rewrite (IH 0 (Nat.max m x)), (IH 0 (Nat.max 0 x)). lia.
  - intros c r E IH x m. rewrite !measure_cons, E. destruct (up && (c =? 32)%N).
    + rewrite (IH 0 (Nat.max m x)), (IH 0 (Nat.max 0 x)). lia.
    + rewrite (IH (S x) m). lia.
Qed.
Lemma measure_mono : forall up l x y, x <= y -> measure up x 0 l <= measure up y 0 l.
Proof.
  intros up. apply (measure_ind (fun l => forall x y, x <= y -> measure up x 0 l <= measure up y 0 l)).
  - intros. cbn [measure]. lia.
  - intros c r E IH x y H. rewrite !measure_cons, E. rewrite (measure_max _ _ 0 (Nat.max 0 x)), (measure_max _ _ 0 (Nat.max 0 y)). lia.
  - intros c r E IH x y H. rewrite !measure_cons, E. destruct (up && (c =? 32)%N).
    + rewrite (measure_max _ _ 0 (Nat.max 0 x)), (measure_max _ _ 0 (Nat.max 0 y)). lia.
    + apply IH. lia.
Qed.
Lemma measure_ge : forall up l x, x <= measure up x 0 l.
Proof.
  intros up. apply (measure_ind (fun l => forall x, x <= measure up x 0 l)).
  - intros. cbn [measure]. lia.
  - intros c r E IH x. rewrite measure_cons, E. rewrite measure_max. lia.
  - intros c r E IH x. rewrite measure_cons, E. destruct (up && (c =? 32)%N).
    + rewrite measure_max. lia.
    + specialize (IH (S x)). lia.
Qed.
Lemma measure_le : forall up l x, measure up x 0 l <= x + length l.
Proof.
  intros up. apply (measure_ind (fun l => forall x, measure up x 0 l <= x + length l)).
  - intros. cbn [measure length]. lia.
  - intros c r E IH x. rewrite measure_cons, E. rewrite measure_max. specialize (IH 0).
    assert (length (trim (tl r)) <= length r). { destruct r as [|d [|b r]]; cbn [tl trim length]; try lia. destruct (b =? 32)%N; cbn [length]; lia. }
    cbn [length]. lia.
  - intros c r E IH x. rewrite measure_cons, E. cbn [length]. destruct (up && (c =? 32)%N).
    + rewrite measure_max. specialize (IH 0). lia.
    + specialize (IH (S x)). lia.
Qed.
(** a text without its beginning *)
Lemma measure_tail : forall up c r, slashes (c :: r) = false -> measure up 0 0 r <= measure up 0 0 (c :: r).
Proof.
  intros. rewrite measure_cons, H. destruct (up && (c =? 32)%N); [cbn [Nat.max]; lia|].
  apply measure_mono. lia.
Qed.
Lemma measure_skip : forall up i l, i <= cut l -> measure up 0 0 (skipn i l) <= measure up 0 0 l.
Proof.
  induction i as [|i IH]; intros l H; [cbn [skipn]; lia|]. destruct l as [|c r]; [cbn [skipn]; lia|].
  rewrite cut_cons in H. destruct (slashes (c :: r)) eqn:E; [lia|]. cbn [skipn].
  pose proof (measure_tail up c r E). specialize (IH r ltac:(lia)). lia.
Qed.
Lemma measure_cut : forall l x, x + cut l <= measure false x 0 l.
Proof.
  induction l as [|c r IH]; intros x; [cbn; lia|]. rewrite cut_cons, measure_cons. destruct (slashes (c :: r)).
  - rewrite measure_max. lia.
  - cbn [andb]. specialize (IH (S x)). lia.
Qed.
(** the first [j] bytes have no blank *)
Lemma measure_word : forall up j l x, j <= cut l -> (forall i, i < j -> nth i l 0%N <> 32%N) -> x + j <= measure up x 0 l.
Proof.
  induction j as [|j IH]; intros l x H F. { pose proof (measure_ge up l x). lia. }
  destruct l as [|c r]; [cbn in H; lia|]. rewrite cut_cons in H. rewrite measure_cons. destruct (slashes (c :: r)); [lia|].
  pose proof (F 0 ltac:(lia)) as F0. cbn [nth] in F0. apply N.eqb_neq in F0. rewrite F0, andb_false_r.
  assert (G : forall i, i < j -> nth i r 0%N <> 32%N). { intros i Hi. apply (F (S i)). lia. }
  specialize (IH r (S x) ltac:(lia) G). lia.
Qed.

(** ** The next piece of a text *)
Lemma back_le : forall l k, back l k <= k.
Proof. induction k as [|k IH]; cbn [back]; [lia|]. destruct (nth (S k) l 0 =? 32)%N; lia. Qed.
Lemma back_blank : forall l k, (exists i, i <= k /\ nth i l 0%N = 32%N) -> nth (back l k) l 0%N = 32%N.
Proof.
  induction k as [|k IH]; intros [i [Hi Hb]].
  - assert (i = 0) by lia. subst. cbn [back]. exact Hb.
  - cbn [back]. destruct (nth (S k) l 0 =? 32)%N eqn:E; [apply N.eqb_eq; exact E|].
    apply IH. exists i. split; [|exact Hb]. destruct (Nat.eq_dec i (S k)); [|lia]. subst. rewrite Hb in E. discriminate.
Qed.
Lemma blank_dec : forall l k, (exists i, i <= k /\ nth i l 0%N = 32%N) \/ (forall i, i <= k -> nth i l 0%N <> 32%N).
Proof.
  induction k as [|k IH].
  - destruct (N.eq_dec (nth 0 l 0%N) 32); [left; exists 0; auto|]. right. intros i H. assert (i = 0) by lia. subst. assumption.
  - destruct IH as [[i [H1 H2]]|IH]; [left; exists i; auto|].
    destruct (N.eq_dec (nth (S k) l 0%N) 32); [left; exists (S k); auto|].
    right. intros i H. destruct (Nat.eq_dec i (S k)); [subst; assumption|]. apply IH. lia.
Qed.
(** the text fits into [w] bytes, apart from a blank at its beginning *)
Definition fits (up : bool) (w : nat) (l : list N) : Prop :=
  measure up 0 0 l <= w \/ exists t, l = 32%N :: t /\ measure up 0 0 t <= w.
(** what the next piece is: up to a //, up to the end, or up to a blank *)
Inductive next (w : nat) (l : list N) : list N -> list N -> Prop :=
  | next_slash : cut l <= w -> slashes (skipn (cut l) l) = true -> next w l (firstn (cut l) l) (skipn (cut l + 2) l)
  | next_end : cut l <= w -> cut l = length l -> next w l l []
  | next_blank : forall i, i <= w -> w < cut l -> nth i l 0%N = 32%N -> next w l (firstn i l) (skipn (i + 1) l).
Lemma next_value_next : forall up w l p rest, fits up w l -> next_value w l = Ok (p, rest) -> next w l p rest.
Proof.
  intros up w l p rest F. unfold next_value. rewrite stop_cut. set (k := Nat.min w (cut l)).
  destruct (300 <? k); [discriminate|].
  destruct (slashes (skipn k l)) eqn:Es.
  - destruct (300 <=? k); [discriminate|]. intros H. injection H as <- <-.
    assert (E : k = cut l) by (apply cut_slashes; [unfold k; lia|exact Es]). rewrite E. constructor; [unfold k in E; lia|]. rewrite <- E. exact Es.
  - destruct (skipn k l) as [|c r] eqn:Ek.
    + destruct (300 <=? k); [discriminate|]. intros H. injection H as <- <-.
      assert (L : length l <= k). { pose proof (skipn_length k l) as L. rewrite Ek in L. cbn [length] in L. lia. }
      pose proof (cut_le l). rewrite firstn_all2 by lia. apply next_end; unfold k in *; lia.
    + assert (Hw : w < cut l). { destruct (Nat.lt_ge_cases w (cut l)) as [L|L]; [exact L|]. exfalso.
        assert (E : k = cut l) by (unfold k; lia). rewrite E in Ek. destruct (skip_cut l) as [A|A]; rewrite Ek in A; [discriminate|congruence]. }
      assert (E : k = w) by (unfold k; lia). rewrite E in Ek |- *. clear E. clear k.
      assert (B : exists i, i <= w /\ nth i l 0%N = 32%N).
      { destruct F as [F|[t [-> F]]]; [|exists 0; split; [lia|reflexivity]].
        destruct (blank_dec l w) as [B|B]; [exact B|]. exfalso.
        assert (G : forall i, i < S w -> nth i l 0%N <> 32%N) by (intros i Hi; apply B; lia).
        pose proof (measure_word up (S w) l 0 ltac:(lia) G). lia. }
      pose proof (back_blank l w B) as Hb. pose proof (back_le l w) as Hl. rewrite Hb. cbn [N.eqb Pos.eqb].
      destruct (300 <=? back l w); [discriminate|]. intros H. injection H as <- <-. apply next_blank; assumption.
Qed.
Lemma fits_nil : forall up w, fits up w [].
Proof. intros. left. cbn. lia. Qed.
Lemma fits_slash : forall up w l, slashes l = true -> measure up 0 0 l <= w -> fits up w (skipn 2 l).
Proof.
  intros up w l E H. destruct l as [|c [|d r]]; try discriminate. cbn [skipn]. rewrite measure_cons, E in H. cbn [tl] in H.
  rewrite measure_max in H. destruct r as [|b r]; [apply fits_nil|]. cbn [trim] in H. destruct (b =? 32)%N eqn:Eb.
  - right. exists r. apply N.eqb_eq in Eb. subst. split; [reflexivity|lia].
  - left. lia.
Qed.
Lemma skipn_plus : forall A (l : list A) a b, skipn (a + b) l = skipn b (skipn a l).
Proof.
  induction l as [|x l IH]; intros a b; [now rewrite !skipn_nil|]. destruct a as [|a]; [reflexivity|]. cbn [plus skipn]. apply IH.
Qed.
Lemma cut_blank : forall t, cut (32%N :: t) = S (cut t).
Proof. intros [|a t]; reflexivity. Qed.
Lemma next_fits : forall up w l p rest, fits up w l -> next w l p rest -> fits up w rest.
Proof.
  intros up w l p rest F Hn. destruct Hn as [Hc Hs|Hc Hs|i Hi Hc Hb].
  - rewrite skipn_plus. apply fits_slash; [exact Hs|]. destruct F as [F|[t [E F]]].
    + pose proof (measure_skip up (cut l) l ltac:(lia)). lia.
    + subst l. rewrite cut_blank. cbn [skipn]. pose proof (measure_skip up (cut t) t ltac:(lia)). lia.
  - apply fits_nil.
  - left. destruct F as [F|[t [E F]]].
    + pose proof (measure_skip up (i + 1) l ltac:(lia)). lia.
    + subst l. rewrite cut_blank in Hc.
      rewrite Nat.add_1_r. cbn [skipn]. pose proof (measure_skip up i t ltac:(lia)). lia.
Qed.
Lemma next_short : forall w l p rest, next w l p rest -> length p <= w.
Proof.
  intros w l p rest H. destruct H; [rewrite firstn_length; lia|lia|rewrite firstn_length; lia].
Qed.
Lemma next_less : forall w l p rest, next w l p rest -> l <> [] -> length rest < length l.
Proof.
  intros w l p rest H Hl. destruct H as [Hc Hs|Hc Hs|i Hi Hc Hb].
  - rewrite skipn_length. destruct l; [congruence|]. cbn [length]. lia.
  - destruct l; [congruence|]. cbn [length]. lia.
  - rewrite skipn_length. pose proof (cut_le l). lia.
Qed.

(** ** Words *)
Lemma words_step : forall cur c r, words_from cur (c :: r) =
  if slashes (c :: r) then nonempty cur ++ words_from [] (tl r)
  else if (c =? 32)%N then nonempty cur ++ words_from [] r else words_from (cur ++ [c]) r.
Proof.
  intros. cbn [words_from]. destruct r as [|d r].
  - cbn [slashes]. destruct (c =? 32)%N; cbn [words_from nonempty]; [rewrite app_nil_r|]; reflexivity.
  - cbn [slashes tl]. destruct ((c =? 47) && (d =? 47))%N; reflexivity.
Qed.
Lemma slashes_firstn : forall i l, slashes l = false -> slashes (firstn i l) = false.
Proof. intros i l H. destruct i as [|[|i]]; destruct l as [|a [|b l]]; try reflexivity. exact H. Qed.
Lemma words_blank : forall i l cur, i < cut l -> nth i l 0%N = 32%N ->
  words_from cur l = words_from cur (firstn i l) ++ words_from [] (skipn (i + 1) l).
Proof.
  induction i as [|i IH]; intros l cur H Hb; (destruct l as [|c r]; [cbn in H; lia|]); rewrite cut_cons in H; destruct (slashes (c :: r)) eqn:E; try lia.
  - cbn [nth] in Hb. subst c. rewrite words_step, E. cbn [N.eqb Pos.eqb firstn skipn plus words_from]. reflexivity.
  - cbn [nth] in Hb. rewrite words_step, E. cbn [firstn skipn plus]. rewrite words_step.
    pose proof (slashes_firstn (S i) (c :: r) E) as E'. cbn [firstn] in E'. rewrite E'. specialize (IH r) as IH'.
    destruct (c =? 32)%N; [rewrite (IH r []) by (assumption || lia); rewrite app_assoc; reflexivity|].
    apply IH; [lia|assumption].
Qed.
Lemma words_slash : forall l cur, slashes (skipn (cut l) l) = true ->
  words_from cur l = words_from cur (firstn (cut l) l) ++ words_from [] (skipn (cut l + 2) l).
Proof.
  induction l as [|c r IH]; intros cur H; [discriminate|]. rewrite cut_cons in *. destruct (slashes (c :: r)) eqn:E.
  - rewrite words_step, E. cbn [firstn plus words_from]. destruct r; [discriminate|]. reflexivity.
  - cbn [skipn] in H. rewrite words_step, E. cbn [firstn plus skipn]. rewrite words_step.
    pose proof (slashes_firstn (S (cut r)) (c :: r) E) as E'. cbn [firstn] in E'. rewrite E'.
    destruct (c =? 32)%N; [rewrite (IH [] H); rewrite app_assoc; reflexivity|]. apply IH. exact H.
Qed.
Lemma next_words : forall w l p rest, next w l p rest -> words p ++ words rest = words l.
Proof.
  intros w l p rest H. unfold words. destruct H as [Hc Hs|Hc Hs|i Hi Hc Hb].
  - symmetry. apply words_slash. exact Hs.
  - rewrite app_nil_r. reflexivity.
  - symmetry. apply words_blank; [lia|exact Hb].
Qed.

(** ** Parts *)
Definition last_parts (r : list N) : list (list N) := match r with [] => [] | _ => parts_from [] r end.
Lemma parts_step : forall cur c r, parts_from cur (c :: r) =
  if slashes (c :: r) then cur :: last_parts (tl r) else parts_from (cur ++ [c]) r.
Proof. intros. cbn [parts_from]. destruct r as [|d r]; [reflexivity|]. cbn [slashes tl]. destruct ((c =? 47) && (d =? 47))%N; reflexivity. Qed.
Lemma parts_last : forall v, parts v = last_parts v.
Proof. reflexivity. Qed.
Lemma parts_slash : forall l cur, slashes (skipn (cut l) l) = true ->
  parts_from cur l = (cur ++ firstn (cut l) l) :: parts (skipn (cut l + 2) l).
Proof.
  induction l as [|c r IH]; intros cur H; [discriminate|]. rewrite cut_cons in *. rewrite parts_step. destruct (slashes (c :: r)) eqn:E.
  - cbn [firstn plus skipn]. rewrite app_nil_r. destruct r; [discriminate|]. reflexivity.
  - cbn [skipn] in H. rewrite IH by exact H. cbn [firstn plus skipn]. rewrite <- app_assoc. reflexivity.
Qed.
Lemma parts_end : forall l cur, cut l = length l -> parts_from cur l = [cur ++ l].
Proof.
  induction l as [|c r IH]; intros cur H; [cbn [parts_from]; rewrite app_nil_r; reflexivity|].
  rewrite cut_cons in H. rewrite parts_step. cbn [length] in H. destruct (slashes (c :: r)); [discriminate|].
  rewrite IH by lia. rewrite <- app_assoc. reflexivity.
Qed.
(** a text without a blank after // *)
Lemma nbb_skip : forall i l, no_blank_break l -> no_blank_break (skipn i l).
Proof. induction i as [|i IH]; intros [|c r] H; try assumption. apply IH. exact (proj2 H). Qed.
Lemma nbb_trim : forall c r, no_blank_break (c :: r) -> slashes (c :: r) = true -> trim (tl r) = tl r.
Proof.
  intros c r [H _] E. destruct r as [|d [|b r]]; try reflexivity. cbn [tl trim]. destruct (b =? 32)%N eqn:Eb; [|reflexivity].
  exfalso. apply H. cbn [slashes] in E. apply andb_true_iff in E. destruct E as [E1 E2]. apply N.eqb_eq in E1, E2, Eb. subst. reflexivity.
Qed.
Lemma next_plain : forall w l p rest, no_blank_break l -> measure false 0 0 l <= w -> l <> [] -> next w l p rest ->
  no_blank_break rest /\ measure false 0 0 rest <= w /\ parts l = p :: parts rest.
Proof.
  intros w l p rest B F Hl H. pose proof (measure_cut l 0) as Hm. destruct H as [Hc Hs|Hc Hs|i Hi Hc Hb].
  - split; [apply nbb_skip; exact B|]. split.
    + rewrite skipn_plus. pose proof (measure_skip false (cut l) l ltac:(lia)) as M.
      pose proof (nbb_skip (cut l) l B) as B'. destruct (skipn (cut l) l) as [|c r]; [discriminate|].
      rewrite measure_cons, Hs in M. rewrite measure_max in M. rewrite (nbb_trim _ _ B' Hs) in M.
      destruct r; [discriminate|]. cbn [skipn tl] in *. lia.
    + destruct l as [|c r]; [congruence|]. exact (parts_slash (c :: r) [] Hs).
  - split; [exact I|]. split; [cbn; lia|]. destruct l as [|c r]; [congruence|]. exact (parts_end (c :: r) [] Hs).
  - lia.
Qed.
(** all the pieces *)
Inductive pieces (w : nat) : list N -> list (list N) -> Prop :=
  | pieces_nil : pieces w [] []
  | pieces_cons : forall l p rest ps, l <> [] -> next w l p rest -> pieces w rest ps -> pieces w l (p :: ps).
Lemma pieces_nil_inv : forall w ps, pieces w [] ps -> ps = [].
Proof. intros w ps H. inversion H; [reflexivity|congruence]. Qed.
Lemma pieces_shows : forall j w v ps, measure (isupper j) 0 0 v <= w -> pieces w v ps -> shows j w v ps.
Proof.
  intros j w v ps F H.
  assert (G : Forall (fun p => length p <= w) ps /\ flat_map words ps = words v /\ (v = [] -> ps = [])).
  { clear F. induction H as [|l p rest ps Hl Hn Hp IH].
    - split; [constructor|]. split; [reflexivity|]. reflexivity.
    - destruct IH as [A [B _]]. split; [constructor; [exact (next_short _ _ _ _ Hn)|exact A]|]. split.
      + cbn [flat_map]. rewrite B. apply (next_words w). exact Hn.
      + intros E. congruence. }
  destruct G as [A [B D]]. split; [exact A|]. split; [exact B|]. split; [exact D|].
  intros Hj Bl. assert (E : isupper j = false) by (destruct Hj as [<-|[<-|[<-|[]]]]; reflexivity). rewrite E in F.
  clear A B D E Hj j. induction H as [|l p rest ps Hl Hn Hp IH]; [reflexivity|].
  destruct (next_plain w l p rest Bl F Hl Hn) as [B1 [F1 P1]]. rewrite P1, (IH F1 B1). reflexivity.
Qed.

(** ** What a text needs *)
Lemma longest_app : forall a b, longest (a ++ b) = Nat.max (longest a) (longest b).
Proof. induction a as [|x a IH]; intros b; cbn [app longest fold_right]; [reflexivity|]. fold (longest (a ++ b)). rewrite IH. fold (longest a). lia. Qed.
Lemma longest_nonempty : forall w, longest (nonempty w) = length w.
Proof. destruct w; [reflexivity|]. cbn [nonempty longest fold_right length]. lia. Qed.
Lemma words_trim : forall l, words_from [] (trim l) = words_from [] l.
Proof.
  intros [|b r]; [reflexivity|]. cbn [trim]. destruct (b =? 32)%N eqn:E; [|reflexivity]. rewrite words_step, E.
  apply N.eqb_eq in E. subst b. replace (slashes (32%N :: r)) with false by (destruct r; reflexivity). reflexivity.
Qed.
Lemma measure_words : forall l cur, measure true (length cur) 0 l = longest (words_from cur l).
Proof.
  apply (measure_ind (fun l => forall cur, measure true (length cur) 0 l = longest (words_from cur l))).
  - intros. cbn [measure words_from]. rewrite longest_nonempty. lia.
  - intros c r E IH cur. rewrite measure_cons, words_step, E, longest_app, longest_nonempty, measure_max.
    rewrite <- (words_trim (tl r)). specialize (IH []). cbn [length] in IH. rewrite IH. lia.
  - intros c r E IH cur. rewrite measure_cons, words_step, E. cbn [andb]. destruct (c =? 32)%N.
    + rewrite longest_app, longest_nonempty, measure_max. specialize (IH []). cbn [length] in IH. rewrite IH. lia.
    + rewrite <- IH, app_length. cbn [length]. rewrite Nat.add_1_r. reflexivity.
Qed.
Lemma measure_parts_from : forall l cur, no_blank_break l -> measure false (length cur) 0 l = longest (parts_from cur l).
Proof.
  apply (measure_ind (fun l => forall cur, no_blank_break l -> measure false (length cur) 0 l = longest (parts_from cur l))).
  - intros. cbn [measure parts_from longest fold_right]. lia.
  - intros c r E IH cur B. rewrite measure_cons, parts_step, E, measure_max. cbn [longest fold_right]. fold (longest (last_parts (tl r))).
    rewrite (nbb_trim c r B E) in IH |- *.
    assert (B' : no_blank_break (tl r)). { destruct B as [_ B]. destruct r; [exact I|exact (proj2 B)]. }
    specialize (IH [] B'). cbn [length] in IH. destruct (tl r) as [|b r']; [cbn; lia|]. cbn [last_parts]. rewrite IH. lia.
  - intros c r E IH cur B. rewrite measure_cons, parts_step, E. cbn [andb]. rewrite <- IH by exact (proj2 B).
    rewrite app_length. cbn [length]. rewrite Nat.add_1_r. reflexivity.
Qed.
Lemma measure_needs : forall j v, In j [99; 67; 108; 76; 114; 82; 97]%N -> no_blank_break v -> measure (isupper j) 0 0 v = needs j v.
Proof.
  intros j v Hj B. unfold needs.
  assert (E : existsb (N.eqb j) [67; 76; 82]%N = isupper j) by (repeat destruct Hj as [<-|Hj]; try reflexivity; destruct Hj).
  rewrite E. destruct (isupper j).
  - apply (measure_words v []).
  - destruct v as [|c r]; [reflexivity|]. apply (measure_parts_from (c :: r) []). exact B.
Qed.
