(** Theorems about n-way alignment, time-based costs and optional tokens. *)
From Coq Require Import List ZArith Arith Bool String Lia Permutation.
From Verif Require Import Base Matrix_Model Graph_Model Graph_Spec Graph_Proofs1 Graph_Proofs5
  Token_Spec Ngraph_Model Ngraph_Spec Ngraph_Proofs1 Ngraph_Proofs2 Ngraph_Proofs3 Ngraph_Proofs4
  Ngraph_Proofs5.
Import ListNotations.
Open Scope res_scope.

(** The settings of the search; [wraps] is the list iterator of the usual library, for which
    advancing past the end gives the beginning. *)
Definition wraps (hypref time : bool) : nmode := {| n_hypref := hypref; n_time := time; n_wrap := true |}.

(** ** C88: alignment of any number of speeches *)

(** The search ends; the cost reported is the cost of the alignment returned and no alignment
    of the speeches costs less. *)
Theorem C88_nway_is_minimum : forall g, wf_nway g -> agreement (g_env g) ->
  exists N, forall fuel, N <= fuel -> exists best al,
    n_align array_store (wraps false false) g fuel (new_array_store g) = Ok (best, al) /\
    nway_alignment g al /\ total (nway_word_cost g) al = best /\
    forall al', nway_alignment g al' -> (best <= total (nway_word_cost g) al')%Z.
Proof.
  intros g Hwf Hag. apply nway_search; [exact Hwf|reflexivity|reflexivity|].
  intros c p Hv Hs. cbn [n_cost wraps n_hypref n_time]. apply generic_word_ok; assumption.
Qed.
Print Assumptions C88_nway_is_minimum.

(** ** C89: time-based costs *)

(** Hypotheses against references: the search minimises the divided time cost. *)
Theorem C89_time_is_minimum : forall g dv, wf_graph g -> timed_tokens g -> ordinary_times g ->
  positive_prices g -> time_unit g dv ->
  exists N, forall fuel, N <= fuel -> exists best al,
    n_align array_store (wraps true true) g fuel (new_array_store g) = Ok (best, al) /\
    is_alignment g al /\ total (divided dv (column_time upper g)) al = best /\
    (no_pruning g -> forall al', is_alignment g al' ->
       (best <= total (divided dv (column_time upper g)) al')%Z).
Proof. intros. apply time_search; auto. Qed.
Print Assumptions C89_time_is_minimum.

(** Any number of speeches: likewise, where of a column's tokens only the last is charged. *)
Theorem C89_nway_time_is_minimum : forall g dv, wf_nway g -> timed_tokens g -> ordinary_times g ->
  positive_prices g -> time_unit g dv ->
  exists N, forall fuel, N <= fuel -> exists best al,
    n_align array_store (wraps false true) g fuel (new_array_store g) = Ok (best, al) /\
    nway_alignment g al /\ total (divided dv (nway_time g)) al = best /\
    forall al', nway_alignment g al' -> (best <= total (divided dv (nway_time g)) al')%Z.
Proof.
  intros g dv Hwf Ht Ho Hp Hd. apply nway_search; [exact Hwf|reflexivity|reflexivity|].
  intros c p Hv Hs. cbn [n_cost wraps n_hypref n_time]. apply time_generic_ok; assumption.
Qed.
Print Assumptions C89_nway_time_is_minimum.

(** There is such a divisor as soon as there is a token, and only one. *)
Theorem C89_divisor_exists : forall g, timed_tokens g -> ordinary_times g -> positive_prices g ->
  (exists d, In d (g_dims g) /\ d_toks d <> []) ->
  exists dv, time_unit g dv /\ (0 < dv)%Z /\ forall dv', time_unit g dv' -> dv' = dv.
Proof.
  intros g Ht Ho Hp (d & Hd & Hne). destruct (time_unit_exists g Ht Ho) as [dv Hdv].
  - destruct (d_toks d) as [|t r] eqn:E; [congruence|]. intros Hf.
    assert (H : In t (flat_map d_toks (g_dims g))) by (apply in_flat_map; exists d; rewrite E; split; [exact Hd|now left]).
    rewrite Hf in H. destruct H.
  - exists dv. destruct (time_unit_ok g Ht Ho Hp dv Hdv) as [E Hpos]. split; [exact Hdv|]. split; [exact Hpos|].
    intros dv' Hdv'. destruct (time_unit_ok g Ht Ho Hp dv' Hdv') as [E' _]. congruence.
Qed.
Print Assumptions C89_divisor_exists.

(** The division loses nothing when speakers are not compared and the smallest price divides
    the others: the alignment minimises the undivided time cost. *)
Theorem C89_division_is_exact : forall g dv, timed_tokens g -> ordinary_times g ->
  positive_prices g -> whole_prices g -> time_unit g dv ->
  (cf_spk (g_cfg g) = false -> forall al, is_alignment g al ->
     (dv * total (divided dv (column_time upper g)) al = total (column_time upper g) al)%Z) /\
  (forall al, nway_alignment g al ->
     (dv * total (divided dv (nway_time g)) al = total (nway_time g) al)%Z).
Proof.
  intros g dv Ht Ho Hp Hw Hd. split.
  - intros Hs al Hal. apply column_time_exact; assumption.
  - intros al Hal. apply nway_time_exact; assumption.
Qed.
Print Assumptions C89_division_is_exact.

Theorem C89_undivided_time_is_minimum : forall g dv, wf_graph g -> no_pruning g ->
  timed_tokens g -> ordinary_times g -> positive_prices g -> whole_prices g ->
  cf_spk (g_cfg g) = false -> time_unit g dv ->
  exists N, forall fuel, N <= fuel -> exists best al,
    n_align array_store (wraps true true) g fuel (new_array_store g) = Ok (best, al) /\
    is_alignment g al /\ (total (column_time upper g) al = dv * best)%Z /\
    forall al', is_alignment g al' -> (total (column_time upper g) al <= total (column_time upper g) al')%Z.
Proof.
  intros g dv Hwf Hnp Ht Ho Hp Hw Hs Hd.
  destruct (time_search g (wraps true true) dv Hwf Ht Ho Hp Hd eq_refl eq_refl) as [N HN].
  destruct (time_unit_ok g Ht Ho Hp dv Hd) as [_ Hpos].
  exists N. intros fuel HF. destruct (HN fuel HF) as (best & al & E & Hal & Hc & Hmin).
  exists best, al. split; [exact E|]. split; [exact Hal|].
  pose proof (column_time_exact g Ht Ho Hp Hw dv Hd Hs upper) as Hx.
  split; [rewrite <- (Hx al Hal), Hc; reflexivity|].
  intros al' Hal'. rewrite <- (Hx al Hal), <- (Hx al' Hal'), Hc.
  apply Z.mul_le_mono_nonneg_l; [lia|]. apply Hmin; assumption.
Qed.
Print Assumptions C89_undivided_time_is_minimum.

(** ** C90: optional tokens *)

(** With [ref], [hyp] or an unknown value, a lone optional token pays the optional price on
    exactly the side the help text names, at every step the search considers. *)
Theorem C90_optional_side : forall v g c l p i t,
  v <> "both"%string -> (cf_opt_ref (g_cfg g), cf_opt_hyp (g_cfg g)) = optional_sides v ->
  wf_graph g -> reached g c -> previous_coordinates g c = Ok l -> In p l ->
  entries (column_of g c p) = [(i, t)] ->
  transition_cost g c p =
    Ok (if side_wanted v (i <? g_ref g) && te_optional (g_env g) t
        then cf_opt (g_cfg g) else cf_ins (g_cfg g)).
Proof.
  intros v g c l p i t Hv Ho Hwf Hr El Hp He.
  rewrite (lone_price g c l p i t Hwf (reached_valid g c Hwf Hr) El Hp He).
  unfold optional_sides in Ho. unfold side_wanted.
  destruct (String.eqb_spec v "both") as [E|_]; [congruence|]. cbn [orb] in Ho.
  destruct (String.eqb_spec v "ref") as [E|_].
  - injection Ho as -> ->. subst v. cbn [String.eqb]. destruct (i <? g_ref g)%nat; reflexivity.
  - destruct (String.eqb v "hyp"); injection Ho as -> ->; destruct (i <? g_ref g)%nat; reflexivity.
Qed.
Print Assumptions C90_optional_side.

(** ** Cases *)

Definition chain (ts : list nat) : dimension :=
  {| d_toks := ts; d_first := firstn 1 ts; d_last := match ts with [] => [] | _ => [List.last ts 0] end |}.

Definition ex_cfg (spk oref ohyp : bool) : config :=
  {| cf_trans := 400; cf_ins := 300; cf_opt := 200; cf_nonspk := 100; cf_adapt := 50;
     cf_opt_ref := oref; cf_opt_hyp := ohyp; cf_prune := false; cf_prune_thr := 0;
     cf_word := false; cf_word_thr := 0; cf_spk := spk; cf_adaptive := false;
     cf_wordalign := false; cf_maxdur := 1; cf_getref := fun _ _ s => s |}.

Definition ex_env (eqv : nat -> nat -> bool) (opt : nat -> bool) (times : nat -> Z * Z)
           (spk : nat -> string) : tok_env :=
  {| te_prec := fun t => match t with 1 => [0] | 4 => [3] | _ => [] end;
     te_optional := opt; te_equiv := eqv; te_edit := fun _ _ => 0%Z;
     te_start := fun t => fst (times t); te_end := fun t => snd (times t);
     te_segstart := fun _ => 0%Z; te_segend := fun _ => 0%Z;
     te_file := fun _ => "f"%string; te_chan := fun _ => "1"%string; te_spk := spk |}.

Definition ex_word (t : nat) : nat := match t with 0 => 10 | 1 => 11 | 2 => 11 | 3 => 12 | _ => 11 end.
Definition ex_times (t : nat) : Z * Z :=
  match t with
  | 0 => (100, 200)%Z | 1 => (200, 400)%Z | 2 => (230, 380)%Z | 3 => (120, 180)%Z | _ => (210, 430)%Z
  end.

Definition ex_g (e : tok_env) (spk : bool) (ds : list dimension) (ref : nat) : graph :=
  {| g_env := e; g_cfg := ex_cfg spk false false; g_dims := ds; g_ref := ref |}.

Definition said : tok_env :=
  ex_env (fun t u => Nat.eqb (ex_word t) (ex_word u)) (fun t => Nat.eqb t 3) ex_times (fun _ => "A"%string).

Definition three : list dimension := [chain [0; 1]; chain [2]; chain [3; 4]].

Lemma three_dims : forall e, te_prec e = te_prec said ->
  forall d, In d three -> wf_dim e d.
Proof.
  intros e He d [<-|[<-|[<-|[]]]]; unfold wf_dim; cbn [chain d_toks d_first d_last firstn List.last];
    rewrite He; cbn [said ex_env te_prec];
    (split; [intros t Ht; simpl in *; tauto|]); (split; [intros t Ht; simpl in *; tauto|]);
    (split; [discriminate|]); split.
  - intros t p [<-|[]] [].
  - intros t Ht Hn. simpl in Ht. destruct Ht as [<-|[<-|[]]]; [destruct Hn; now left|].
    split; [discriminate|]. intros p [<-|[]]. now left.
  - intros t p [<-|[]] [].
  - intros t Ht Hn. destruct Hn. exact Ht.
  - intros t p [<-|[]] [].
  - intros t Ht Hn. simpl in Ht. destruct Ht as [<-|[<-|[]]]; [destruct Hn; now left|].
    split; [discriminate|]. intros p [<-|[]]. now left.
Qed.

Lemma three_acyclic : forall g, te_prec (g_env g) = te_prec said -> g_dims g = three -> acyclic g.
Proof.
  intros g He Hd. exists (fun t => t). intros d t p Hin Ht Hp Hpr. rewrite Hd in Hin. rewrite He in Hpr.
  destruct Hin as [<-|[<-|[<-|[]]]]; simpl in Ht;
    repeat (destruct Ht as [<-|Ht]; [simpl in Hpr; try (destruct Hpr as [<-|[]]); try lia; destruct Hpr|]);
    destruct Ht.
Qed.

Lemma three_wf : wf_nway (ex_g said false three 0).
Proof.
  split; [apply (three_dims said eq_refl)|]. split; [apply three_acyclic; reflexivity|]. simpl. lia.
Qed.

Lemma said_agreement : agreement said.
Proof.
  split; [intros t; simpl; apply Nat.eqb_refl|]. split; [intros; simpl; apply Nat.eqb_sym|].
  intros t u v. simpl. rewrite !Nat.eqb_eq. congruence.
Qed.

Lemma three_wf_graph : wf_graph (ex_g said false three 2).
Proof.
  split; [apply (three_dims said eq_refl)|]. split; [apply three_acyclic; reflexivity|].
  split; [unfold nonneg_costs; simpl; repeat split; try lia; intros; lia|].
  split; [discriminate|]. simpl. lia.
Qed.

Lemma three_timed : forall ref, timed_tokens (ex_g said false three ref).
Proof.
  intros ref d t Hd Ht. simpl in Hd. destruct Hd as [<-|[<-|[<-|[]]]]; simpl in Ht;
    repeat (destruct Ht as [<-|Ht]; [simpl; lia|]); destruct Ht.
Qed.

Lemma three_ordinary : forall ref, ordinary_times (ex_g said false three ref).
Proof.
  intros ref t Ht [_ H]. cbn in Ht.
  assert (A : (snd (ex_times t) < 10 ^ 9)%Z /\ (0 < snd (ex_times t))%Z).
  { repeat (destruct Ht as [<-|Ht]; [split; reflexivity|]). destruct Ht. }
  cbn [ex_g g_env said ex_env te_end] in H. apply Z.divide_pos_le in H; lia.
Qed.

Lemma three_positive : forall ref, positive_prices (ex_g said false three ref).
Proof. intros ref. unfold positive_prices. simpl. lia. Qed.

Lemma three_unit : forall ref, time_unit (ex_g said false three ref) 1000.
Proof.
  intros ref.
  assert (P10 : forall a b, (10 | a)%Z -> (10 | b)%Z -> (a mod 100 <> 0)%Z ->
     largest_common_power a b 10).
  { intros a b Ha Hb Hn. exists 1%Z. split; [lia|]. split; [reflexivity|]. split; [exact Ha|]. split; [exact Hb|].
    intros [H _]. apply Hn. apply Z.mod_divide in H; [exact H|lia]. }
  exists 2, 10%Z. split; [right; right; now left|].
  split; [apply P10; [exists 23%Z; reflexivity|exists 38%Z; reflexivity|discriminate]|].
  split; [|reflexivity].
  intros u q Hu (k & Hk & -> & _ & _ & Hn).
  destruct (Z.le_gt_cases 1 k) as [L|L].
  - change 10%Z with (10 ^ 1)%Z at 1. apply Z.pow_le_mono_r; lia.
  - exfalso. replace k with 0%Z in Hn by lia. apply Hn. cbn in Hu.
    repeat (destruct Hu as [<-|Hu];
      [split; apply Z.mod_divide; [lia|reflexivity|lia|reflexivity]|]). destruct Hu.
Qed.

(** ** Refuted readings *)

(** As the language defines it, advancing an iterator that is at the end of its list is
    undefined, and the search over two speeches does it. *)
Theorem C88_iterator_past_end_refuted : exists g,
  wf_nway g /\ agreement (g_env g) /\ List.length (g_dims g) = 2 /\
  forall fuel, 2 <= fuel ->
  n_align array_store {| n_hypref := false; n_time := false; n_wrap := false |} g fuel (new_array_store g) = Undef.
Proof.
  set (g := ex_g said false [chain [0]; chain [2]] 0).
  exists g. split; [|split; [apply said_agreement|split; [reflexivity|]]].
  - split; [|split; [|simpl; lia]].
    + intros d [<-|[<-|[]]]; unfold wf_dim; cbn [chain d_toks d_first d_last firstn List.last];
        (split; [intros t Ht; exact Ht|]); (split; [intros t Ht; exact Ht|]); (split; [discriminate|]);
        (split; [intros t p [<-|[]] []|intros t Ht Hn; destruct (Hn Ht)]).
    + exists (fun t => t). intros d t p [<-|[<-|[]]] [<-|[]] _ [].
  - intros fuel HF. destruct fuel as [|[|fuel]]; [lia|lia|]. unfold n_align, n_fill.
    match goal with |- rbind ?r _ = _ => assert (E : r = Undef) by reflexivity end.
    rewrite E. reflexivity.
Qed.
Print Assumptions C88_iterator_past_end_refuted.

(** Equivalence of tokens must be transitive: tokens are compared with the first of each group
    only, so the cost depends on the order of the speeches (fragments counted as correct are
    equivalent to words that are not equivalent to each other). *)
Theorem C88_without_transitivity_refuted : exists e,
  (forall t, te_equiv e t t = true) /\ (forall t u, te_equiv e t u = te_equiv e u t) /\
  let run := fun ds => n_align array_store (wraps false false) (ex_g e false ds 0) 10
                         (new_array_store (ex_g e false ds 0)) in
  (exists al, run [chain [0]; chain [2]; chain [3]] = Ok (400%Z, al) /\
     total (nway_word_cost (ex_g e false [chain [0]; chain [2]; chain [3]] 0)) al = 0%Z) /\
  exists al, run [chain [2]; chain [0]; chain [3]] = Ok (0%Z, al).
Proof.
  exists (ex_env (fun t u => Nat.eqb t u || Nat.eqb t 2 || Nat.eqb u 2) (fun _ => false) ex_times (fun _ => "A"%string)).
  split; [intros t; simpl; rewrite Nat.eqb_refl; reflexivity|].
  split; [intros t u; cbn [te_equiv ex_env]; rewrite (Nat.eqb_sym t u);
    destruct (Nat.eqb u t), (Nat.eqb t 2), (Nat.eqb u 2); reflexivity|].
  split; [|eexists; vm_compute; reflexivity].
  eexists. split; [vm_compute; reflexivity|]. vm_compute. reflexivity.
Qed.
Print Assumptions C88_without_transitivity_refuted.

(** The price of a speech without a token depends on the last token of the column alone: the
    same three speeches in another order cost more. *)
Theorem C88_speech_order_refuted : exists e ds ds' best best' al al',
  agreement e /\ Permutation ds ds' /\
  n_align array_store (wraps false false) (ex_g e false ds 0) 10 (new_array_store (ex_g e false ds 0)) = Ok (best, al) /\
  n_align array_store (wraps false false) (ex_g e false ds' 0) 10 (new_array_store (ex_g e false ds' 0)) = Ok (best', al') /\
  (best < best')%Z.
Proof.
  exists said, [chain [2]; chain [3]; chain []], [chain [3]; chain [2]; chain []].
  do 4 eexists. split; [apply said_agreement|]. split; [apply perm_swap|].
  split; [vm_compute; reflexivity|]. split; [vm_compute; reflexivity|]. lia.
Qed.
Print Assumptions C88_speech_order_refuted.

(** Only the last token of an n-way column pays its missing time: the cost reported is less
    than what all the tokens of the alignment returned would pay, and the order matters. *)
Theorem C89_every_token_pays_refuted : exists e ds al best' al',
  n_align array_store (wraps false true) (ex_g e false ds 0) 10 (new_array_store (ex_g e false ds 0)) = Ok (0%Z, al) /\
  (0 < total (nway_time_all (ex_g e false ds 0)) al)%Z /\
  n_align array_store (wraps false true) (ex_g e false (rev ds) 0) 10
    (new_array_store (ex_g e false (rev ds) 0)) = Ok (best', al') /\ (0 < best')%Z.
Proof.
  exists said, [chain [2]; chain [5]]. do 3 eexists.
  split; [vm_compute; reflexivity|]. split; [vm_compute; reflexivity|].
  split; [vm_compute; reflexivity|]. reflexivity.
Qed.
Print Assumptions C89_every_token_pays_refuted.

(** With speakers compared, the penalty for mismatched speakers is lost in the division when
    every time is a multiple of ten milliseconds. *)
Theorem C89_speaker_penalty_refuted : exists e ds best al,
  let g := ex_g e true ds 1 in
  wf_graph g /\ timed_tokens g /\ ordinary_times g /\ positive_prices g /\ no_pruning g /\
  n_align array_store (wraps true true) g 10 (new_array_store g) = Ok (best, al) /\
  al = [[Some 2; Some 5]] /\
  String.eqb (cf_getref (g_cfg g) "f" "1" (upper (te_spk e 2))) (upper (te_spk e 5)) = false /\
  (cf_nonspk (g_cfg g) <= total (column_time upper g) al)%Z /\ best = 0%Z.
Proof.
  exists (ex_env (fun _ _ => true) (fun _ => false) (fun _ => (230, 380)%Z)
            (fun t => if Nat.eqb t 2 then "a"%string else "b"%string)),
    [chain [2]; chain [5]], 0%Z, [[Some 2; Some 5]].
  cbv zeta. split; [|split; [|split; [|split; [|split; [split; reflexivity|]]]]].
  - split; [|split; [|split; [|split]]].
    + intros d [<-|[<-|[]]]; unfold wf_dim; cbn [chain d_toks d_first d_last firstn List.last];
        (split; [intros t Ht; exact Ht|]); (split; [intros t Ht; exact Ht|]); (split; [discriminate|]);
        (split; [intros t p [<-|[]] []|intros t Ht Hn; destruct (Hn Ht)]).
    + exists (fun t => t). intros d t p [<-|[<-|[]]] [<-|[]] _ [].
    + unfold nonneg_costs; simpl; repeat split; try lia; intros; lia.
    + intros _ d1 d2 t1 t2 _ _ _ _. split; reflexivity.
    + simpl. lia.
  - intros d t _ _. simpl. lia.
  - intros t _ [_ H]. cbn [ex_g g_env ex_env te_end snd] in H. apply Z.divide_pos_le in H; lia.
  - unfold positive_prices. simpl. lia.
  - split; [vm_compute; reflexivity|]. split; [reflexivity|]. split; [reflexivity|].
    split; [vm_compute; discriminate|reflexivity].
Qed.
Print Assumptions C89_speaker_penalty_refuted.

(** A token that spans [0, 0] makes the divisor, and the search, undefined. *)
Theorem C89_zero_times_refuted : exists e ds,
  timed_tokens (ex_g e false ds 1) /\ positive_prices (ex_g e false ds 1) /\
  forall fuel, 3 <= fuel ->
  n_align array_store (wraps true true) (ex_g e false ds 1) fuel (new_array_store (ex_g e false ds 1)) = Undef.
Proof.
  exists (ex_env (fun _ _ => true) (fun _ => false) (fun _ => (0, 0)%Z) (fun _ => "A"%string)),
    [chain [2]; chain [5]].
  split; [intros d t _ _; simpl; lia|]. split; [unfold positive_prices; simpl; lia|].
  intros fuel HF. destruct fuel as [|[|[|fuel]]]; [lia|lia|lia|]. unfold n_align, n_fill.
  match goal with |- rbind ?r _ = _ => assert (E : r = Undef) by reflexivity end.
  rewrite E. reflexivity.
Qed.
Print Assumptions C89_zero_times_refuted.

(** [both] makes tokens optional in the references only: a lone optional hypothesis token pays
    the full price. *)
Theorem C90_both_refuted : exists g c l p i t,
  (cf_opt_ref (g_cfg g), cf_opt_hyp (g_cfg g)) = optional_sides "both" /\
  wf_graph g /\ reached g c /\ previous_coordinates g c = Ok l /\ In p l /\
  entries (column_of g c p) = [(i, t)] /\
  side_wanted "both" (i <? g_ref g) = true /\ te_optional (g_env g) t = true /\
  transition_cost g c p = Ok (cf_ins (g_cfg g)) /\ cf_ins (g_cfg g) <> cf_opt (g_cfg g).
Proof.
  set (e := ex_env (fun _ _ => true) (fun _ => true) ex_times (fun _ => "A"%string)).
  exists {| g_env := e; g_cfg := ex_cfg false true false; g_dims := [chain [2]; chain [5]]; g_ref := 1 |},
    [1; 1]. eexists. exists [0; 1], 0, 2.
  split; [reflexivity|]. split.
  { split; [|split; [|split; [|split]]].
    + intros d [<-|[<-|[]]]; unfold wf_dim; cbn [chain d_toks d_first d_last firstn List.last];
        (split; [intros t Ht; exact Ht|]); (split; [intros t Ht; exact Ht|]); (split; [discriminate|]);
        (split; [intros t p [<-|[]] []|intros t Ht Hn; destruct (Hn Ht)]).
    + exists (fun t => t). intros d t p [<-|[<-|[]]] [<-|[]] _ [].
    + unfold nonneg_costs; simpl; repeat split; try lia; intros; lia.
    + discriminate.
    + simpl. lia. }
  split; [apply reached_start; vm_compute; now left|].
  split; [vm_compute; reflexivity|].
  split; [simpl; tauto|].
  split; [vm_compute; reflexivity|]. split; [reflexivity|]. split; [reflexivity|].
  split; [vm_compute; reflexivity|discriminate].
Qed.
Print Assumptions C90_both_refuted.

(** ** The theorems apply *)

(** Three speeches: the second word is said by all three, the first by two with different
    words. *)

(** ** Concrete cases *)
Example C88_case : wf_nway (ex_g said false three 0) /\ agreement said /\
  n_align array_store (wraps false false) (ex_g said false three 0) 20
    (new_array_store (ex_g said false three 0))
  = Ok (600%Z, [[Some 0; None; Some 3]; [Some 1; Some 2; Some 4]]).
Proof. split; [exact three_wf|]. split; [exact said_agreement|]. vm_compute. reflexivity. Qed.

Example C89_case : wf_graph (ex_g said false three 2) /\ no_pruning (ex_g said false three 2) /\
  timed_tokens (ex_g said false three 2) /\ ordinary_times (ex_g said false three 2) /\
  positive_prices (ex_g said false three 2) /\ whole_prices (ex_g said false three 2) /\
  time_unit (ex_g said false three 2) 1000 /\
  exists al, n_align array_store (wraps true true) (ex_g said false three 2) 20
    (new_array_store (ex_g said false three 2)) = Ok (77%Z, al).
Proof.
  split; [exact three_wf_graph|]. split; [split; reflexivity|]. split; [apply three_timed|].
  split; [apply three_ordinary|]. split; [apply three_positive|].
  split; [unfold whole_prices; simpl; split; [exists 4%Z|split; [exists 3%Z|exists 2%Z]]; reflexivity|].
  split; [apply three_unit|]. eexists. vm_compute. reflexivity.
Qed.

Example C89_nway_case : wf_nway (ex_g said false three 0) /\ time_unit (ex_g said false three 0) 1000 /\
  exists al, n_align array_store (wraps false true) (ex_g said false three 0) 20
    (new_array_store (ex_g said false three 0)) = Ok (40%Z, al).
Proof. split; [exact three_wf|]. split; [apply three_unit|]. eexists. vm_compute. reflexivity. Qed.

Example C90_case : let g := {| g_env := said; g_cfg := ex_cfg false true false; g_dims := three; g_ref := 2 |} in
  (cf_opt_ref (g_cfg g), cf_opt_hyp (g_cfg g)) = optional_sides "ref" /\
  exists l, previous_coordinates g [0; 0; 1] = Ok l /\ In [0; 0; 0] l /\
  entries (column_of g [0; 0; 1] [0; 0; 0]) = [(2, 3)] /\
  transition_cost g [0; 0; 1] [0; 0; 0] = Ok 200%Z.
Proof.
  cbv zeta. split; [reflexivity|]. eexists. split; [vm_compute; reflexivity|].
  split; [now left|]. split; vm_compute; reflexivity.
Qed.
