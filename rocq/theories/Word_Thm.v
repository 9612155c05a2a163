(** Comparison and distance of words. *)
From Coq Require Import List Arith ZArith NArith Bool Lia.
From Verif Require Import Base Text_Model Text_Spec Word_Model Word_Spec Word_Proofs
  Net_Model Net_Spec Net_Thm NetDp_Model NetDp_Spec NetDp_Thm.
Import ListNotations.

(** The comparison finds two words equal exactly when their texts are the same or, with fragment
    scoring, one of them is a fragment of the other. *)
Theorem C28_verdict : forall e w1 w2 s t, good_word e w1 -> good_word e w2 ->
  text_is w1 s -> text_is w2 t ->
  exists z, equal_word e (Some w1) (Some w2) = Ok z
    /\ (z = 0%Z <-> same_text (w_frag w1 || w_frag w2) s t).
Proof.
  intros e w1 w2 s t (_ & s' & Hs & G1) (_ & t' & Ht & G2) Ts Tt.
  rewrite (text_unique _ _ _ Hs Ts) in G1. rewrite (text_unique _ _ _ Ht Tt) in G2.
  apply equal_word_text; assumption.
Qed.
Print Assumptions C28_verdict.

(** The verdict does not depend on the order unless fragment scoring meets two fragments. *)
Theorem C28_verdict_is_symmetric : forall e w1 w2, good_word e w1 -> good_word e w2 ->
  (w_frag w1 || w_frag w2 = true -> forall s t, text_is w1 s -> text_is w2 t ->
     ~ (is_fragment s /\ is_fragment t)) ->
  exists z12 z21, equal_word e (Some w1) (Some w2) = Ok z12 /\ equal_word e (Some w2) (Some w1) = Ok z21
    /\ (z12 = 0%Z <-> z21 = 0%Z).
Proof.
  intros e w1 w2 G1 G2 H. destruct G1 as (V1 & s & Ts & Gs), G2 as (V2 & t & Tt & Gt).
  destruct (C28_verdict e w1 w2 s t) as (z & E & Hz); [split; eauto|split; eauto|assumption|assumption|].
  destruct (C28_verdict e w2 w1 t s) as (z' & E' & Hz'); [split; eauto|split; eauto|assumption|assumption|].
  exists z, z'. split; [exact E|]. split; [exact E'|]. rewrite Hz, Hz', (orb_comm (w_frag w2)).
  specialize (fun K => H K s t Ts Tt). split; apply same_text_sym; tauto.
Qed.
Print Assumptions C28_verdict_is_symmetric.

Definition mk (s : list N) (odel frag : bool) : word :=
  {| w_value := s; w_intern := Some s; w_opt_del := odel; w_frag := frag;
     w_t1 := 0; w_t2 := 0; w_dur := 0; w_weight := 1000 |}.

(** two fragments: "-b" is found equal to "-ab", "-ab" is not found equal to "-b" *)
Theorem C28_symmetric_for_fragments_refuted : exists w1 w2,
  equal_word ASCII (Some w1) (Some w2) = Ok 0%Z /\ equal_word ASCII (Some w2) (Some w1) = Ok 1%Z.
Proof. exists (mk [45; 98]%N false true), (mk [45; 97; 98]%N false true). split; vm_compute; reflexivity. Qed.

(** A copied optional word has lost the text it is compared by. *)
Theorem C28_copies_compare_alike_refuted : exists w, good_word ASCII w /\
  equal_word ASCII (Some w) (Some w) = Ok 0%Z /\ equal_word ASCII (Some (copy_word w)) (Some w) = Undef.
Proof.
  exists (mk [97%N] true false). split; [|split; vm_compute; reflexivity].
  assert (W : well_formed ASCII [97%N]).
  { exists [[97%N]]. split; [reflexivity|]. constructor; [|constructor].
    exists 97%N, []. split; [reflexivity|]. split; [reflexivity|]. constructor; [lia|constructor]. }
  split; [exact W|]. exists [97%N]. split; [right; split; reflexivity|]. split; [discriminate|exact W].
Qed.

(** what the reader of transcripts makes of "(x)": an optional word with text x *)
Theorem C28_optional_words : forall w w' s, w_opt_del w = false -> w_value w = s -> s <> [] ->
  decode_opt_del w = Ok w' ->
  (exists x, s = [40%N] ++ x ++ [41%N] /\ w_opt_del w' = true /\ text_is w' x)
  \/ ((forall x, s <> [40%N] ++ x ++ [41%N]) /\ w' = w).
Proof.
  intros w w' s Ho Hv Hs. unfold decode_opt_del. rewrite Hv, (last_byte_ok s Hs), (byte_at_0 s Hs). cbn [rbind].
  destruct (((last s 0 =? 41) && (hd 0 s =? 40))%N) eqn:E; intros H; injection H as <-.
  - left. apply andb_true_iff in E. destruct E as (E1 & E2). apply N.eqb_eq in E1, E2.
    destruct s as [|a s]; [congruence|]. cbn [hd] in E2. subst a.
    destruct (list_eq_dec N.eq_dec s []) as [->|Ns]; [cbn in E1; discriminate|].
    destruct (exists_last Ns) as (x & b & ->). change (40%N :: x ++ [b]) with ((40%N :: x) ++ [b]) in E1.
    rewrite last_last in E1. subst b. exists x. split; [reflexivity|]. split; [reflexivity|].
    right. split; [reflexivity|]. cbn [w_intern skipn length]. rewrite app_length. cbn [length].
    replace (S (length x + 1) - 2) with (length x) by lia. rewrite firstn_app, Nat.sub_diag, firstn_all. cbn. now rewrite app_nil_r.
  - right. split; [|reflexivity]. intros x ->. rewrite app_assoc, last_last in E. cbn in E. discriminate.
Qed.
Print Assumptions C28_optional_words.

(** ** The distance *)

Definition sub_cost (e : enc) (w1 w2 : word) := wwd_word e (Some w1) (Some w2).
Definition del_cost (e : enc) (w : word) := wwd_word e (Some w) None.
Definition ins_cost (e : enc) (w : word) := wwd_word e None (Some w).

(** The distance of every two words, from the verdict of the comparison. *)
Theorem C27_distance : forall e w1 w2 s t, good_word e w1 -> good_word e w2 -> text_is w1 s -> text_is w2 t ->
  exists c, sub_cost e w1 w2 = Ok c
    /\ (null_word w1 /\ null_word w2 -> c = 1000%Z)
    /\ (~ (null_word w1 /\ null_word w2) ->
         (same_text (w_frag w1 || w_frag w2) s t -> c = 0%Z)
         /\ (~ same_text (w_frag w1 || w_frag w2) s t -> c = 4000%Z)).
Proof.
  intros e w1 w2 s t G1 G2 Ts Tt. destruct (C28_verdict e w1 w2 s t G1 G2 Ts Tt) as (z & E & Hz).
  destruct (is_at_ok e w1 (proj1 G1)) as (b1 & E1 & H1). destruct (is_at_ok e w2 (proj1 G2)) as (b2 & E2 & H2).
  unfold sub_cost, wwd_word, null_at. cbn [rbind]. rewrite E1. cbn [rbind].
  assert (Eb : (if b1 then is_at e w2 else Ok false) = Ok (b1 && b2)) by (destruct b1; [exact E2|reflexivity]).
  rewrite Eb. cbn [rbind]. rewrite E. cbn [rbind].
  destruct (b1 && b2) eqn:Eb'.
  - apply andb_true_iff in Eb'. destruct Eb' as (-> & ->). exists 1000%Z. split; [reflexivity|]. split; [reflexivity|]. tauto.
  - assert (N : ~ (null_word w1 /\ null_word w2)).
    { intros (A & B). apply H1 in A. apply H2 in B. subst. discriminate. }
    destruct (Z.eqb_spec z 0) as [->|Nz].
    + exists 0%Z. split; [reflexivity|]. split; [tauto|]. tauto.
    + exists 4000%Z. split; [reflexivity|]. split; [tauto|]. tauto.
Qed.
Print Assumptions C27_distance.

(** Deleting and inserting a word cost the same: 0.001 for the null alternative, 2 for an optional
    word and 3 for any other. *)
Theorem C27_deletion_and_insertion : forall e w, well_formed e (w_value w) ->
  exists c, del_cost e w = Ok c /\ ins_cost e w = Ok c
    /\ (null_word w -> c = 1%Z)
    /\ (~ null_word w -> w_opt_del w = true -> c = 2000%Z)
    /\ (~ null_word w -> w_opt_del w = false -> c = 3000%Z).
Proof.
  intros e w G. destruct (is_at_ok e w G) as (b & E & H).
  unfold del_cost, ins_cost, wwd_word, null_at. rewrite E. cbn [rbind]. destruct b.
  - exists 1%Z. repeat split; tauto.
  - assert (~ null_word w) by (intros K; apply H in K; discriminate).
    destruct (w_opt_del w).
    + exists 2000%Z. repeat split; (tauto || congruence).
    + exists 3000%Z. repeat split; (tauto || congruence).
Qed.
Print Assumptions C27_deletion_and_insertion.

(** A match is free; a substitution costs more than the deletion or the insertion alone and, unless
    both words are optional, less than both together. *)
Theorem C27_cost_structure : forall e w1 w2 s t, good_word e w1 -> good_word e w2 ->
  text_is w1 s -> text_is w2 t -> ~ null_word w1 -> ~ null_word w2 ->
  exists c d i, sub_cost e w1 w2 = Ok c /\ del_cost e w1 = Ok d /\ ins_cost e w2 = Ok i
    /\ (0 < d)%Z /\ (0 < i)%Z
    /\ (same_text (w_frag w1 || w_frag w2) s t -> c = 0%Z)
    /\ (~ same_text (w_frag w1 || w_frag w2) s t ->
         (Z.max d i < c)%Z /\ (w_opt_del w1 = false \/ w_opt_del w2 = false -> (c < d + i)%Z)).
Proof.
  intros e w1 w2 s t G1 G2 Ts Tt N1 N2.
  destruct (C27_distance e w1 w2 s t G1 G2 Ts Tt) as (c & Ec & _ & Hc).
  destruct (C27_deletion_and_insertion e w1 (proj1 G1)) as (d & Ed & _ & _ & D1 & D2).
  destruct (C27_deletion_and_insertion e w2 (proj1 G2)) as (i & _ & Ei & _ & I1 & I2).
  specialize (D1 N1). specialize (D2 N1). specialize (I1 N2). specialize (I2 N2).
  destruct Hc as (C1 & C2); [tauto|].
  assert (d = 2000 \/ d = 3000)%Z by (destruct (w_opt_del w1); auto).
  assert (i = 2000 \/ i = 3000)%Z by (destruct (w_opt_del w2); auto).
  exists c, d, i. repeat (split; [assumption || lia|]). intros Hn. specialize (C2 Hn). split; [lia|].
  intros [K|K]; [specialize (D2 K)|specialize (I2 K)]; lia.
Qed.
Print Assumptions C27_cost_structure.

(** the distance is symmetric unless fragment scoring meets two fragments *)
Theorem C27_symmetric : forall e w1 w2, good_word e w1 -> good_word e w2 ->
  (w_frag w1 || w_frag w2 = true -> forall s t, text_is w1 s -> text_is w2 t ->
     ~ (is_fragment s /\ is_fragment t)) ->
  exists c, sub_cost e w1 w2 = Ok c /\ sub_cost e w2 w1 = Ok c.
Proof.
  intros e w1 w2 G1 G2 H. destruct (C28_verdict_is_symmetric e w1 w2 G1 G2 H) as (z & z' & E & E' & Hz).
  destruct (is_at_ok e w1 (proj1 G1)) as (b1 & E1 & _). destruct (is_at_ok e w2 (proj1 G2)) as (b2 & E2 & _).
  unfold sub_cost, wwd_word, null_at. cbn [rbind]. rewrite E1, E2. cbn [rbind].
  assert (Eb : (if b1 then Ok b2 else Ok false) = Ok (b1 && b2)) by (destruct b1; reflexivity).
  assert (Eb2 : (if b2 then Ok b1 else Ok false) = Ok (b1 && b2)) by (destruct b1, b2; reflexivity).
  rewrite Eb, Eb2. cbn [rbind]. destruct (b1 && b2); [eexists; split; reflexivity|].
  rewrite E, E'. cbn [rbind]. destruct (Z.eqb_spec z 0), (Z.eqb_spec z' 0); try (eexists; split; reflexivity); tauto.
Qed.
Print Assumptions C27_symmetric.

(** Two null alternatives cost 1 although they are equal, and more than deleting and inserting them;
    two different optional words cost as much as deleting and inserting them. *)
Theorem C27_without_restrictions_refuted :
  (exists w, good_word ASCII w /\ equal_word ASCII (Some w) (Some w) = Ok 0%Z
     /\ sub_cost ASCII w w = Ok 1000%Z /\ del_cost ASCII w = Ok 1%Z /\ ins_cost ASCII w = Ok 1%Z)
  /\ (exists w1 w2, sub_cost ASCII w1 w2 = Ok 4000%Z /\ del_cost ASCII w1 = Ok 2000%Z /\ ins_cost ASCII w2 = Ok 2000%Z).
Proof.
  split.
  - exists (mk [64%N] false false). split; [|repeat split; vm_compute; reflexivity].
    split; [apply at_wf|]. exists [64%N]. split; [left; split; reflexivity|]. split; [discriminate|apply at_wf].
  - exists (mk [97%N] true false), (mk [98%N] true false). repeat split; vm_compute; reflexivity.
Qed.

(** ** The distances by times and by weights *)

(** The time distance of two words is how far their ends lie apart, plus 0.001 if they differ;
    deleting or inserting a word costs its duration. *)
Theorem C58_time_distance : forall e w1 w2 s t, good_word e w1 -> good_word e w2 -> text_is w1 s -> text_is w2 t ->
  (exists c, wwd_time_word e (Some w1) (Some w2) = Ok c
     /\ (same_text (w_frag w1 || w_frag w2) s t -> c = Z.abs (w_t1 w1 - w_t1 w2) + Z.abs (w_t2 w1 - w_t2 w2))%Z
     /\ (~ same_text (w_frag w1 || w_frag w2) s t -> c = Z.abs (w_t1 w1 - w_t1 w2) + Z.abs (w_t2 w1 - w_t2 w2) + 1)%Z)
  /\ (~ null_word w1 -> wwd_time_word e (Some w1) None = Ok (w_dur w1) /\ wwd_time_word e None (Some w1) = Ok (w_dur w1)).
Proof.
  intros e w1 w2 s t G1 G2 Ts Tt. destruct (C28_verdict e w1 w2 s t G1 G2 Ts Tt) as (z & E & Hz). split.
  - unfold wwd_time_word, null_at. cbn [rbind]. rewrite E. cbn [rbind]. eexists. split; [reflexivity|].
    destruct (Z.eqb_spec z 0); split; intros; try lia; tauto.
  - intros N. destruct (is_at_ok e w1 (proj1 G1)) as ([|] & E1 & H1); [exfalso; apply N, H1; reflexivity|].
    unfold wwd_time_word, null_at. rewrite E1. split; reflexivity.
Qed.
Print Assumptions C58_time_distance.

(** The weighted distance of two different words is what deleting the one and inserting the other
    cost; equal words are free. *)
Theorem C58_weight_distance : forall e w1 w2 s t, good_word e w1 -> good_word e w2 -> text_is w1 s -> text_is w2 t ->
  ~ null_word w1 -> ~ null_word w2 ->
  exists c, wwd_weight_word e (Some w1) (Some w2) = Ok c
    /\ wwd_weight_word e (Some w1) None = Ok (w_weight w1) /\ wwd_weight_word e None (Some w2) = Ok (w_weight w2)
    /\ (same_text (w_frag w1 || w_frag w2) s t -> c = 0%Z)
    /\ (~ same_text (w_frag w1 || w_frag w2) s t -> c = w_weight w1 + w_weight w2)%Z.
Proof.
  intros e w1 w2 s t G1 G2 Ts Tt N1 N2. destruct (C28_verdict e w1 w2 s t G1 G2 Ts Tt) as (z & E & Hz).
  destruct (is_at_ok e w1 (proj1 G1)) as ([|] & E1 & H1); [exfalso; apply N1, H1; reflexivity|].
  destruct (is_at_ok e w2 (proj1 G2)) as ([|] & E2 & H2); [exfalso; apply N2, H2; reflexivity|].
  unfold wwd_weight_word, null_at. rewrite E1, E2. cbn [rbind]. rewrite E. cbn [rbind].
  destruct (Z.eqb_spec z 0); eexists; (split; [reflexivity|]); (split; [reflexivity|]); (split; [reflexivity|]); split; intros; solve [reflexivity | tauto].
Qed.
Print Assumptions C58_weight_distance.

(** ** Copies *)

(** A copy of a word that is not optional and whose text does not end in "*" is the same word for the
    comparison, the times and the weight. *)
Theorem C28_copies : forall w, w_opt_del w = false -> last (w_value w) 0%N <> 42%N -> w_dur w = (w_t2 w - w_t1 w)%Z ->
  w_value (copy_word w) = w_value w /\ (forall s, text_is (copy_word w) s <-> text_is w s)
  /\ w_frag (copy_word w) = w_frag w /\ w_opt_del (copy_word w) = w_opt_del w
  /\ w_t1 (copy_word w) = w_t1 w /\ w_t2 (copy_word w) = w_t2 w /\ w_dur (copy_word w) = w_dur w
  /\ w_weight (copy_word w) = w_weight w.
Proof.
  intros w Ho Hl Hd. assert (E : w_value (copy_word w) = w_value w).
  { unfold copy_word, new_word. cbn [w_value]. destruct (w_value w) as [|a [|b l]]; try reflexivity.
    destruct (N.eqb_spec (last (a :: b :: l) 0%N) 42); [contradiction|reflexivity]. }
  split; [exact E|]. split.
  - intros s. unfold text_is. rewrite E. change (w_opt_del (copy_word w)) with (w_opt_del w). rewrite Ho. split; intros [H|(H & _)]; auto; discriminate.
  - cbn. rewrite Hd. auto 10.
Qed.
Print Assumptions C28_copies.

(** Each copy of a text that ends in several stars loses one of them. *)
Theorem C28_copy_keeps_the_text_refuted : exists w,
  w_value w = [97; 42; 42]%N /\ w_value (copy_word w) = [97; 42]%N /\ w_value (copy_word (copy_word w)) = [97]%N.
Proof. exists (mk [97; 42; 42]%N false false). repeat split. Qed.

(** ** Alignment of networks of words *)
Definition word_cost (e : enc) (x y : option word) : Z :=
  match wwd_word e x y with Ok z => z | _ => 0%Z end.
Definition good_or_null (e : enc) (x : option word) : Prop := match x with Some w => good_word e w | None => True end.

Lemma word_cost_ok e (x y : option word) : x <> None \/ y <> None -> good_or_null e x -> good_or_null e y ->
  wwd_word e x y = Ok (word_cost e x y) /\ (0 <= word_cost e x y <= 4000)%Z.
Proof.
  intros H GX GY. assert (K : exists z, wwd_word e x y = Ok z /\ (0 <= z <= 4000)%Z).
  { destruct x as [w1|], y as [w2|]; cbn [good_or_null] in GX, GY; rename GX into G1; rename GY into G2.
    - destruct (proj2 G1) as (s & Ts & _). destruct (proj2 G2) as (t & Tt & _).
      destruct (C28_verdict e w1 w2 s t G1 G2 Ts Tt) as (z & E & _).
      destruct (is_at_ok e w1 (proj1 G1)) as (b1 & E1 & _). destruct (is_at_ok e w2 (proj1 G2)) as (b2 & E2 & _).
      unfold wwd_word, null_at. cbn [rbind]. rewrite E1, E2. cbn [rbind].
      destruct b1; cbn [rbind]; [destruct b2|]; try (eexists; split; [reflexivity|lia]);
        rewrite E; cbn [rbind]; destruct (z =? 0)%Z; eexists; (split; [reflexivity|lia]).
    - destruct (is_at_ok e w1 (proj1 G1)) as (b1 & E1 & _). unfold wwd_word, null_at. rewrite E1. cbn [rbind].
      destruct b1; [|destruct (w_opt_del w1)]; eexists; (split; [reflexivity|lia]).
    - destruct (is_at_ok e w2 (proj1 G2)) as (b1 & E1 & _). unfold wwd_word, null_at. rewrite E1. cbn [rbind].
      destruct b1; [|destruct (w_opt_del w2)]; eexists; (split; [reflexivity|lia]).
    - destruct H; congruence. }
  destruct K as (z & E & Hz). unfold word_cost. rewrite E. auto.
Qed.

(** With the word distance the cost reported is that of a cheapest alignment and the path is one, for
    every two networks of good words of fewer than 65534 arcs. *)
Theorem C25_words_aligned_at_least_cost : forall e equal is_null is_opt (empty : word) (NA NB : net word) nulls fuel T,
  wf_net NA -> wf_net NB -> no_null_data NA -> no_null_data NB ->
  (forall w, word_in NA (Some w) -> good_word e w) -> (forall w, word_in NB (Some w) -> good_word e w) ->
  (Z.of_nat (n_arcs NA) < 65534 /\ Z.of_nat (n_arcs NB) < 65534)%Z ->
  S (n_nodes NA) < fuel -> S (n_nodes NB) < fuel ->
  exists A B c path s, dpalign (wwd_word e) equal is_null is_opt empty nulls fuel T NA NB = Ok (A, B, (Some c, path)) /\
    is_alignment NA NB s /\ align_cost (word_cost e) NA NB s = c /\
    (forall s', is_alignment NA NB s' -> (c <= align_cost (word_cost e) NA NB s')%Z) /\
    path = map (entry_of equal is_opt empty NA NB) (filter (shown is_null nulls NA NB) s).
Proof.
  intros e equal is_null is_opt empty NA NB nulls fuel T WA WB DA DB GA GB Hs HA HB.
  assert (Hw : forall x y : option word, x <> None \/ y <> None -> word_in NA x -> word_in NB y -> wwd_word e x y = Ok (word_cost e x y) /\ (word_cost e x y <= 4000)%Z).
  { intros x y N IA IB. destruct (word_cost_ok e x y N) as [E L]; [destruct x; cbn; auto|destruct y; cbn; auto|]. split; [exact E|lia]. }
  assert (Hb : (4000 * (Z.of_nat (n_arcs NA) + Z.of_nat (n_arcs NB) + 2) < 999999900)%Z) by lia.
  assert (H0 : (0 <= 4000)%Z) by lia.
  destruct (C25_cost_is_the_minimum _ (wwd_word e) equal is_null is_opt empty (word_cost e) 4000 NA NB nulls fuel T WA WB DA DB Hw H0 Hb Hs HA HB)
    as (A & B & c & p & E & (s0 & S0 & C0) & Hmin).
  destruct (C26_path_is_a_cheapest_alignment _ (wwd_word e) equal is_null is_opt empty (word_cost e) 4000 NA NB nulls fuel T WA WB DA DB Hw H0 Hb Hs HA HB)
    as (A' & B' & c' & p' & s & E' & Hs' & Hmin' & Hp).
  rewrite E in E'. injection E' as <- <- <- <-.
  exists A, B, c, p, s. split; [exact E|]. split; [exact Hs'|]. split; [|split; assumption].
  specialize (Hmin _ Hs'). specialize (Hmin' _ S0). lia.
Qed.
Print Assumptions C25_words_aligned_at_least_cost.

(** ** Cases *)
Lemma ascii_wf s : Forall (fun b => 0 < b < 128)%N s -> well_formed ASCII s.
Proof.
  intros H. exists (map (fun b => [b]) s). split.
  - induction s; cbn; [reflexivity|]. inversion H; subst. f_equal. auto.
  - induction H as [|b s Hb Hs IH]; [constructor|]. cbn. constructor; [|exact IH].
    exists b, []. split; [reflexivity|]. split; [reflexivity|]. constructor; [lia|constructor].
Qed.
Example C27_case : exists w1 w2, good_word ASCII w1 /\ good_word ASCII w2 /\ text_is w1 [97; 45]%N /\ text_is w2 [97; 98]%N
  /\ ~ null_word w1 /\ ~ null_word w2 /\ w_frag w1 = true
  /\ (forall s t, text_is w1 s -> text_is w2 t -> ~ (is_fragment s /\ is_fragment t))
  /\ sub_cost ASCII w1 w2 = Ok 0%Z /\ sub_cost ASCII w2 (mk [98%N] false false) = Ok 4000%Z.
Proof.
  exists (mk [97; 45]%N false true), (mk [97; 98]%N false false).
  assert (T1 : text_is (mk [97; 45]%N false true) [97; 45]%N) by (left; split; reflexivity).
  assert (T2 : text_is (mk [97; 98]%N false false) [97; 98]%N) by (left; split; reflexivity).
  split; [split; [|exists [97; 45]%N; split; [exact T1|split; [discriminate|]]]; apply ascii_wf; repeat constructor; lia|].
  split; [split; [|exists [97; 98]%N; split; [exact T2|split; [discriminate|]]]; apply ascii_wf; repeat constructor; lia|].
  split; [exact T1|]. split; [exact T2|]. split; [discriminate|]. split; [discriminate|]. split; [reflexivity|].
  split; [|split; vm_compute; reflexivity].
  intros s t Hs Ht (_ & x & Hx). rewrite (text_unique _ _ _ Ht T2) in Hx. destruct Hx as [(E & _)|(E & _)].
  - discriminate.
  - apply (f_equal (@rev N)) in E. rewrite rev_app_distr in E. discriminate.
Qed.
