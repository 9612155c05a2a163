(** Proofs about the lines of an STM file taken together. *)
From Coq Require Import String List NArith ZArith Arith Bool Ascii Lia Sorted Permutation.
From Verif Require Import Base Store_Model Store_Proofs Segm_Model Links_Model Links_Spec Alt_Model Alt_Spec Alt_Proofs Sgml_Model Sgml_Proofs1 AsTrn_Model AsTrn_Spec AsTrn_Proofs AsStm_Model AsStm_Spec AsStm_Proofs1.
Import ListNotations.
Local Open Scope res_scope.
Local Notation length := List.length.

(** ** Ids *)
Lemma digits_head f : forall n, (n < 10 ^ N.of_nat f)%N -> (0 < n)%N -> hd 0%N (digits f n) <> 48%N.
Proof.
  induction f as [|f IH]; intros n Hn P; [change (n < 1)%N in Hn; lia|]. cbn [digits]. destruct (N.ltb_spec n 10) as [L|L]; [cbn [hd]; lia|].
  assert (Hd : (n / 10 < 10 ^ N.of_nat f)%N) by (apply N.div_lt_upper_bound; [lia|]; rewrite Nat2N.inj_succ, N.pow_succ_r' in Hn; exact Hn).
  assert (Hp : (0 < n / 10)%N) by (apply N.div_str_pos; lia). specialize (IH _ Hd Hp). assert (Hf : 0 < f) by (destruct f; [change (n / 10 < 1)%N in Hd; lia|lia]).
  destruct (digits_ok f _ Hd Hf) as (_ & _ & NE). destruct (digits f (n / 10)); [congruence|exact IH].
Qed.
Lemma decimal3_ok n : decimal3 n (repeat 48%N (3 - length (nat_text n)) ++ nat_text n).
Proof.
  destruct (nat_text_ok n) as (V & F & NE). split; [|split; [|split]].
  - apply Forall_app. split; [apply Forall_forall; intros c H; apply repeat_spec in H; subst; unfold digit; lia|exact F].
  - unfold AsStm_Spec.value. rewrite fold_left_app. replace (fold_left (fun a c : N => (a * 10 + (c - 48))%N) (repeat 48%N (3 - length (nat_text n))) 0%N) with 0%N; [exact V|].
    generalize (3 - length (nat_text n)). intros k. induction k as [|k IH]; [reflexivity|exact IH].
  - rewrite app_length, repeat_length. lia.
  - rewrite app_length, repeat_length. intros L. replace (3 - length (nat_text n)) with 0 by lia. cbn [repeat app].
    assert (P : (0 < n)%N). { destruct (N.eq_dec n 0) as [->|]; [cbn in L; lia|lia]. }
    apply digits_head; [apply size_bound|exact P].
Qed.
Lemma id_ok spkr nb ign k : nb = ign + k -> exists d, decimal3 (N.of_nat k mod 2 ^ 64) d /\ id_of spkr nb ign = [40%N] ++ spkr ++ [45%N] ++ d ++ [41%N].
Proof.
  intros ->. exists (repeat 48%N (3 - length (nat_text (N.of_nat k mod 2 ^ 64))) ++ nat_text (N.of_nat k mod 2 ^ 64)). split; [apply decimal3_ok|].
  unfold id_of. replace (Z.of_nat (ign + k) - Z.of_nat ign)%Z with (Z.of_N (N.of_nat k)) by lia. replace (Z.to_N (Z.of_N (N.of_nat k) mod 2 ^ 64)) with (N.of_nat k mod 2 ^ 64)%N.
  2:{ change (2 ^ 64)%Z with (Z.of_N (2 ^ 64)). rewrite <- N2Z.inj_mod, N2Z.id. reflexivity. }
  rewrite <- !app_assoc. reflexivity.
Qed.

(** ** The map *)
Section Map.
Context {A : Type}.
Lemma add_keys (k : str) (x : A) m : forall j, In j (map fst (add_to k x m)) <-> j = k \/ In j (map fst m).
Proof.
  intros j. induction m as [|(k', l) m IH]; cbn [add_to map In fst]; [intuition congruence|].
  destruct (str_eqb_dec k k') as [(-> & ->)|(NE & ->)]; [cbn [map In fst]; intuition congruence|]. destruct (str_leb k k'); cbn [map In fst]; [intuition congruence|]. rewrite IH. intuition congruence.
Qed.
Lemma at_none s (m : list (str * list A)) : ~ In s (map fst m) -> at_key s m = [].
Proof. induction m as [|(k, l) m IH]; intros H; [reflexivity|]. cbn [at_key]. destruct (str_eqb_dec k s) as [(-> & _)|(_ & ->)]; [exfalso; apply H; left; reflexivity|]. apply IH. intros K; apply H; right; exact K. Qed.
Lemma add_ok (k : str) (x : A) m : StronglySorted before (map fst m) -> StronglySorted before (map fst (add_to k x m)) /\ forall s, at_key s (add_to k x m) = at_key s m ++ (if str_eqb k s then [x] else []).
Proof.
  induction m as [|(k', l) m IH]; intros S.
  - cbn. split; [repeat constructor|]. intros s. destruct (str_eqb k s); reflexivity.
  - cbn [map fst] in S. inversion S as [|? ? S1 F]; subst. destruct (IH S1) as (P1 & P2). cbn [add_to]. destruct (str_eqb_dec k k') as [(-> & E)|(NE & E)]; rewrite E.
    + split; [exact S|]. intros s. cbn [at_key]. destruct (str_eqb k' s); [reflexivity|]. rewrite app_nil_r. reflexivity.
    + destruct (str_leb k k') eqn:EL.
      * assert (B : before k k') by (apply leb_before; assumption). split.
        -- cbn [map fst]. constructor; [exact S|]. constructor; [exact B|]. eapply Forall_impl; [|exact F]. intros z; apply before_trans, B.
        -- intros s. cbn [at_key]. destruct (str_eqb_dec k s) as [(-> & ->)|(_ & ->)]; [|rewrite app_nil_r; reflexivity].
           rewrite (str_eqb_neq k' s) by congruence. rewrite at_none; [reflexivity|]. intros K. rewrite Forall_forall in F. specialize (F s K). exact (before_irrefl _ (before_trans _ _ _ B F)).
      * apply leb_not in EL. split.
        -- cbn [map fst]. constructor; [exact P1|]. apply Forall_forall. intros z Hz. apply add_keys in Hz. destruct Hz as [->|Hz]; [exact EL|]. rewrite Forall_forall in F. auto.
        -- intros s. cbn [at_key]. destruct (str_eqb_dec k' s) as [(-> & ->)|(_ & ->)]; [rewrite (str_eqb_neq k s) by exact NE; rewrite app_nil_r; reflexivity|apply P2].
Qed.
Lemma add_all (k : str) (x : A) m : Permutation (concat (map snd (add_to k x m))) (x :: concat (map snd m)).
Proof.
  induction m as [|(k', l) m IH]; [reflexivity|]. cbn [add_to]. destruct (str_eqb k k'); [|destruct (str_leb k k')]; cbn [map snd concat].
  - rewrite <- app_assoc. cbn [app]. symmetry. apply Permutation_middle.
  - reflexivity.
  - rewrite IH. symmetry. apply Permutation_middle.
Qed.
Lemma at_key_in (m : list (str * list A)) : StronglySorted before (map fst m) -> forall k l, In (k, l) m -> at_key k m = l.
Proof.
  induction m as [|(k', l') m IH]; intros S k l H; [destruct H|]. cbn [map fst] in S. inversion S as [|? ? S1 F]; subst. cbn [at_key]. destruct H as [H|H].
  - injection H as -> ->. rewrite str_eqb_refl. reflexivity.
  - destruct (str_eqb_dec k' k) as [(-> & _)|(_ & ->)]; [|apply IH; assumption]. exfalso. rewrite Forall_forall in F. apply (before_irrefl k), F. change k with (fst (k, l)). apply in_map, H.
Qed.
End Map.

(** ** What the tokens of the segments are *)
Record ivs (n : nat) (st : pstate) (segs : list sseg) (iv : nat -> nat * nat) : Prop := {
  iv_low : forall i, i < n -> fst (iv i) <= snd (iv i) <= length (ps_toks st);
  iv_order : forall i j, i < j -> j < n -> snd (iv i) <= fst (iv j);
  iv_closed : forall i x y, i < n -> fst (iv i) <= x < snd (iv i) -> edge (ps_links st) x y -> fst (iv i) <= y < snd (iv i);
  iv_segs : forall x, In x segs -> s_line x < n /\ within (fst (iv (s_line x))) (snd (iv (s_line x))) (s_first x) /\ within (fst (iv (s_line x))) (snd (iv (s_line x))) (s_last x);
  iv_once : NoDup (map s_line segs) }.
Lemma ivs_perm n st a b iv : Permutation a b -> ivs n st a iv -> ivs n st b iv.
Proof. intros P [A B C D E]. constructor; auto; [intros x Hx; apply D, (Permutation_in _ (Permutation_sym P)), Hx|eapply Permutation_NoDup; [apply Permutation_map, P|exact E]]. Qed.
(** The next line has the tokens from [length (ps_toks st)] on. *)
Lemma ivs_next n st st1 segs iv new : good st -> good st1 -> ext st st1 -> ivs n st segs iv ->
  (forall x, In x new -> s_line x = n /\ within (length (ps_toks st)) (length (ps_toks st1)) (s_first x) /\ within (length (ps_toks st)) (length (ps_toks st1)) (s_last x)) ->
  length new <= 1 -> exists iv', ivs (S n) st1 (new ++ segs) iv'.
Proof.
  intros G G1 X [A B C D E] HN L1. pose proof (ext_len _ _ X) as LX.
  exists (fun i => if Nat.eqb i n then (length (ps_toks st), length (ps_toks st1)) else iv i). constructor.
  - intros i Hi. destruct (Nat.eqb_spec i n) as [->|NE]; cbn [fst snd]; [lia|]. specialize (A i ltac:(lia)). lia.
  - intros i j Hij Hj. destruct (Nat.eqb_spec i n) as [->|NE]; [lia|]. destruct (Nat.eqb_spec j n) as [->|NE2]; cbn [fst snd]; [apply (A i); lia|apply B; lia].
  - intros i x y Hi Hx Hxy. destruct (Nat.eqb_spec i n) as [->|NE]; cbn [fst snd] in *.
    + destruct (proj2 G1 x y Hxy). lia.
    + assert (Lx : x < length (ps_toks st)) by (specialize (A i ltac:(lia)); lia). destruct (good_no_cross st st1 G X x y Lx Hxy) as (H & _). apply (C i x y); [lia|exact Hx|exact H].
  - intros x Hx. apply in_app_iff in Hx. destruct Hx as [Hx|Hx].
    + destruct (HN x Hx) as (-> & F & L). rewrite Nat.eqb_refl. split; [lia|split; assumption].
    + destruct (D x Hx) as (L & F & W). destruct (Nat.eqb_spec (s_line x) n); [lia|]. split; [lia|split; assumption].
  - rewrite map_app. destruct new as [|x [|y new]]; [exact E| |cbn in L1; lia]. cbn [map app]. constructor; [|exact E]. destruct (HN x (or_introl eq_refl)) as (-> & _). intros K. apply in_map_iff in K. destruct K as (y & E2 & Hy). destruct (D y Hy) as (L & _). lia.
Qed.

(** ** The loop *)
Definition count (p : item -> bool) (l : list item) : nat := length (filter p l).
Lemma count_app p a b : count p (a ++ b) = count p a + count p b.
Proof. unfold count. rewrite filter_app, app_length. reflexivity. Qed.
Lemma scored_of_count s l : count (fun i => str_eqb (i_name i) s) l = count (fun i => str_eqb (i_name i) s && i_excl i) l + scored_of s l.
Proof.
  unfold count, scored_of, scored. induction l as [|i l IH]; [reflexivity|]. cbn [filter]. destruct (str_eqb (i_name i) s); cbn [andb]; [|exact IH]. cbn [filter length]. destruct (i_excl i); cbn [negb length]; rewrite IH; lia.
Qed.
Record inv (n : nat) (pre : list item) (t : lstate) : Prop := {
  v_good : good (l_ps t);
  v_sorted : StronglySorted before (map fst (l_map t));
  v_line : l_line t = n;
  v_elem : l_elem t = (Z.of_nat (scored pre) - 1)%Z;
  v_nb : forall s, length (at_key s (l_map t)) = count (fun i => str_eqb (i_name i) s) pre;
  v_ign : forall s, l_ign t s = count (fun i => str_eqb (i_name i) s && i_excl i) pre;
  v_rising : forall s, StronglySorted lt (map s_line (at_key s (l_map t)));
  v_ivs : exists iv, ivs n (l_ps t) (concat (map snd (l_map t))) iv }.
Lemma at_key_all {A} s (m : list (str * list A)) x : In x (at_key s m) -> In x (concat (map snd m)).
Proof. induction m as [|(k, l) m IH]; intros H; [destruct H|]. cbn [at_key map snd concat] in *. apply in_app_iff. destruct (str_eqb k s); auto. Qed.
Lemma sorted_snoc l n : StronglySorted lt l -> (forall x, In x l -> x < n) -> StronglySorted lt (l ++ [n]).
Proof. induction 1 as [|x l S IH F]; intros H; cbn [app]; [repeat constructor|]. constructor; [apply IH; intros y Hy; apply H; right; exact Hy|]. apply Forall_app. split; [exact F|]. constructor; [apply H; left; reflexivity|constructor]. Qed.
Lemma rising_step (m : list (str * list sseg)) k x n : StronglySorted before (map fst m) -> (forall s, StronglySorted lt (map s_line (at_key s m))) -> (forall y, In y (concat (map snd m)) -> s_line y < n) -> s_line x = n ->
  forall s, StronglySorted lt (map s_line (at_key s (add_to k x m))).
Proof.
  intros SB R B E s. rewrite (proj2 (add_ok k x m SB)). destruct (str_eqb k s); [|rewrite app_nil_r; apply R]. rewrite map_app. cbn [map]. rewrite E. apply sorted_snoc; [apply R|]. intros y Hy. apply in_map_iff in Hy. destruct Hy as (z & <- & Hz). apply B, (at_key_all s), Hz.
Qed.
Lemma first_inv : inv 0 [] first_state.
Proof.
  constructor; [split; [intros a b; reflexivity|intros x y []]|constructor|reflexivity|reflexivity|reflexivity|reflexivity|intros s; constructor|]. exists (fun _ => (0, 0)). constructor; [intros i H; lia|intros i j _ H; lia|intros i x y H; lia|intros x []|constructor].
Qed.

Section Loop.
Variable ms : str -> Z.
Let junk : nat -> str := fun _ => [].
Lemma comment_step fuel l t pre n : hd 0%N l = 59%N -> inv n pre t ->
  exists t', step ms junk fuel l t = Ok t' /\ inv (S n) pre t' /\ l_ps t' = l_ps t /\ l_map t' = l_map t /\ l_cats t' = l_cats t ++ comment l.
Proof.
  intros H [G S L E NB IG RS (iv & IV)]. unfold step. replace (is_comment l) with true by (destruct l as [|c l]; [discriminate|cbn in *; rewrite H; reflexivity]).
  eexists. split; [reflexivity|]. cbn [l_ps l_map l_cats]. split; [|auto]. constructor; cbn [l_ps l_map l_cats l_line l_elem l_ign]; auto.
  destruct (ivs_next n (l_ps t) (l_ps t) (concat (map snd (l_map t))) iv [] G G (ext_refl _) IV ltac:(intros x []) ltac:(cbn; lia)) as (iv' & IV'). exists iv'. exact IV'.
Qed.
Lemma data_step fuel l q i t pre n : hd 0%N l <> 59%N -> data_line l q -> n_line q = n -> understood fuel q i -> inv n pre t ->
  exists t' x, step ms junk fuel l t = Ok t' /\ inv (S n) (pre ++ [i]) t' /\ ext (l_ps t) (l_ps t') /\ l_map t' = add_to (i_name i) x (l_map t) /\ l_cats t' = l_cats t
    /\ forall st, ext (l_ps t') st -> segment_of ms st (pre, i) x.
Proof.
  intros H D LN (EQ & NM & EX & TR) [G S L E NB IG RS (iv & IV)]. destruct (line_taken l q D) as (bufs & SC & B0 & B1 & B2 & B3 & B4 & LB & WD).
  assert (NBI : length (at_key (i_name i) (l_map t)) = l_ign t (i_name i) + scored_of (i_name i) pre) by (rewrite NB, IG; apply scored_of_count).
  unfold step. replace (is_comment l) with false by (destruct l as [|c l]; [reflexivity|symmetry; apply N.eqb_neq, H]).
  rewrite SC. cbn [rbind]. rewrite B0, B1, B2, B3, B4. cbn [rbind]. cbv zeta. rewrite WD. unfold junk. rewrite (speaker_name_ok _ _ NM). destruct (i_excl i) eqn:IE.
  - assert (IG' : ignored (n_words q) = true) by (apply ignored_iff, EX; reflexivity). rewrite IG'. eexists _, _. split; [reflexivity|].
    match goal with |- context [add_to _ ?y _] => set (x := y) end. cbn [l_ps l_map l_cats l_line l_elem l_ign]. destruct (add_ok (i_name i) x (l_map t) S) as (S1 & AT). split.
    + constructor; cbn [l_ps l_map l_cats l_line l_elem l_ign]; auto.
      * rewrite E. unfold scored. rewrite filter_app, app_length. cbn [filter]. rewrite IE. cbn [negb length]. lia.
      * intros s. rewrite AT, app_length, count_app, NB. unfold count at 3. cbn [filter]. destruct (str_eqb (i_name i) s); reflexivity.
      * intros s. rewrite count_app. unfold count at 2. cbn [filter]. rewrite IE, andb_true_r. destruct (str_eqb_dec s (i_name i)) as [(-> & ->)|(NE & ->)]; [cbn [length]; rewrite IG; lia|]. rewrite (str_eqb_neq (i_name i) s) by congruence. cbn [length]. rewrite IG. lia.
      * apply (rising_step _ _ _ n S RS); [intros y Hy; apply (iv_segs _ _ _ _ IV y Hy)|exact L].
      * destruct (ivs_next n (l_ps t) (l_ps t) (concat (map snd (l_map t))) iv [x] G G (ext_refl _) IV) as (iv' & IV'); [intros y [<-|[]]; cbn [s_line s_first s_last x]; rewrite L; split; [reflexivity|split; intros z []]|cbn; lia|].
        exists iv'. eapply ivs_perm; [|exact IV']. symmetry. apply add_all.
    + split; [apply ext_refl|]. split; [reflexivity|]. split; [reflexivity|]. intros st _. unfold segment_of, x. rewrite EQ, IE. cbn. rewrite L. repeat split; auto.
  - assert (IG' : ignored (n_words q) = false) by (destruct (ignored (n_words q)) eqn:K; [apply ignored_iff, EX in K; discriminate|reflexivity]). rewrite IG'.
    destruct (TR eq_refl) as (LX & OK & LF). destruct (parse_correct None false (i_alts i) fuel (l_ps t) OK LF G) as (st1 & v & EP & ((G1 & _) & X1 & W1 & W2 & SPE) & _).
    unfold parse_line. rewrite filter_space_lex, LX, EP. cbn [rbind]. eexists _, _. split; [reflexivity|].
    match goal with |- context [add_to _ ?y _] => set (x := y) end. cbn [l_ps l_map l_cats l_line l_elem l_ign]. destruct (add_ok (i_name i) x (l_map t) S) as (S1 & AT). split.
    + constructor; cbn [l_ps l_map l_cats l_line l_elem l_ign]; auto.
      * rewrite E. unfold scored. rewrite filter_app, app_length. cbn [filter]. rewrite IE. cbn [negb length]. lia.
      * intros s. rewrite AT, app_length, count_app, NB. unfold count at 3. cbn [filter]. destruct (str_eqb (i_name i) s); reflexivity.
      * intros s. rewrite count_app. unfold count at 2. cbn [filter]. rewrite IE, andb_false_r. cbn [length]. rewrite IG. lia.
      * apply (rising_step _ _ _ n S RS); [intros y Hy; apply (iv_segs _ _ _ _ IV y Hy)|exact L].
      * destruct (ivs_next n (l_ps t) st1 (concat (map snd (l_map t))) iv [x] G G1 X1 IV) as (iv' & IV'); [intros y [<-|[]]; cbn [s_line s_first s_last x]; rewrite L; auto|cbn; lia|].
        exists iv'. eapply ivs_perm; [|exact IV']. symmetry. apply add_all.
    + split; [exact X1|]. split; [reflexivity|]. split; [reflexivity|]. intros st XS. unfold segment_of. rewrite EQ, IE. cbn [s_src s_chan s_spkr s_start s_end s_line s_label s_excl s_elem s_id s_first s_last x]. rewrite L. repeat (split; [auto; fail|]). split; [rewrite E; lia|]. split; [apply id_ok, NBI|].
      intros w. rewrite (spells_ext st1 st); [apply SPE|exact G1|exact XS|]. intros y Hy. apply W1 in Hy. lia.
Qed.
Lemma steps_ok fuel : forall n ls us cs, says_file n ls us cs -> forall is pre t, Forall2 (understood fuel) us is -> inv n pre t ->
  exists t', steps ms junk fuel ls t = Ok t' /\ inv (n + length ls) (pre ++ is) t' /\ ext (l_ps t) (l_ps t') /\ l_cats t' = l_cats t ++ cs
    /\ (forall s, In s (map fst (l_map t')) <-> In s (map fst (l_map t)) \/ exists i, In i is /\ i_name i = s)
    /\ (forall st, ext (l_ps t') st -> forall s, exists new, at_key s (l_map t') = at_key s (l_map t) ++ new /\ Forall2 (segment_of ms st) (of_name s (in_turn pre is)) new).
Proof.
  induction 1 as [n|n l ls c us cs CL SF IH|n l ls us cs CL SF IH|n l ls q us cs HC DL LN SF IH]; intros is pre t FU IV.
  - inversion FU; subst. exists t. split; [reflexivity|]. cbn [length]. rewrite Nat.add_0_r, app_nil_r, app_nil_r. split; [exact IV|]. split; [apply ext_refl|]. split; [reflexivity|]. split; [intros s; split; [auto|intros [H|(i & [] & _)]; exact H]|].
    intros st _ s. exists []. rewrite app_nil_r. split; [reflexivity|constructor].
  - destruct (comment_step fuel l t pre n (proj1 CL) IV) as (t1 & E1 & I1 & P1 & M1 & C1). destruct (IH is pre t1 FU I1) as (t' & E & I' & X & C & K & F). exists t'. cbn [steps]. rewrite E1. cbn [rbind length]. replace (n + S (length ls)) with (S n + length ls) by lia.
    rewrite P1, M1, C1, (comment_cat l c CL), <- app_assoc in *. auto 10.
  - destruct (comment_step fuel l t pre n (proj1 CL) IV) as (t1 & E1 & I1 & P1 & M1 & C1). destruct (IH is pre t1 FU I1) as (t' & E & I' & X & C & K & F). exists t'. cbn [steps]. rewrite E1. cbn [rbind length]. replace (n + S (length ls)) with (S n + length ls) by lia.
    rewrite P1, M1, C1, (comment_other l CL), app_nil_r in *. auto 10.
  - inversion FU as [|? i ? is0 UN FU' E1 E2]; subst. destruct (data_step fuel l q i t pre _ HC DL eq_refl UN IV) as (t1 & x & E1 & I1 & X1 & M1 & C1 & SG). destruct (IH is0 (pre ++ [i]) t1 FU' I1) as (t' & E & I' & X & C & K & F). exists t'. cbn [steps]. rewrite E1. cbn [rbind length]. replace (n_line q + S (length ls)) with (S (n_line q) + length ls) by lia.
    split; [exact E|]. rewrite <- app_assoc in I'. split; [exact I'|]. split; [eapply ext_trans; eassumption|]. split; [rewrite C, C1; reflexivity|]. split.
    + intros s. rewrite K, M1, add_keys. split.
      * intros [[->|H]|(j & H1 & H2)]; [right; exists i; split; [left|]; reflexivity|left; exact H|right; exists j; split; [right; exact H1|exact H2]].
      * intros [H|(j & [<-|H1] & H2)]; [left; right; exact H|left; left; symmetry; exact H2|right; eauto].
    + intros st XS s. destruct (F st XS s) as (new & EN & FN). rewrite M1, (proj2 (add_ok (i_name i) x (l_map t) (v_sorted _ _ _ IV))) in EN. cbn [in_turn]. unfold of_name. cbn [filter snd]. fold (of_name s (in_turn (pre ++ [i]) is0)).
      destruct (str_eqb (i_name i) s); [|exists new; rewrite app_nil_r in EN; auto]. exists (x :: new). split; [rewrite EN, <- app_assoc; reflexivity|]. constructor; [|exact FN]. apply SG. eapply ext_trans; eassumption.
Qed.
End Loop.
