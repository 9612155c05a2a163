(** Properties C22, C23, C24 and C55: links between tokens, flattening, speeches. *)
From Coq Require Import List ZArith Arith Bool Lia.
From Verif Require Import Base Graph_Model Graph_Spec Links_Model Links_Spec Links_Proofs.
Import ListNotations.
Local Open Scope res_scope.

Definition links_of (ls : list (nat * list nat)) : links :=
  fold_left (fun h e => fold_left (fun h b => link_tokens h (fst e) b) (snd e) h) ls
    {| nxt := fun _ => []; prc := fun _ => [] |}.

Lemma mutual_links_of : forall ls, mutual (links_of ls).
Proof.
  intros ls. unfold links_of.
  assert (G : forall ls h, mutual h ->
     mutual (fold_left (fun h e => fold_left (fun h b => link_tokens h (fst e) b) (snd e) h) ls h)).
  { clear. induction ls as [|[a bs] ls IH]; intros h H; [exact H|]. cbn [fold_left]. apply IH. cbn [fst snd].
    revert h H. induction bs as [|b bs IHb]; intros h H; [exact H|]. cbn [fold_left]. apply IHb. apply mutual_link. exact H. }
  apply G. intros a b. reflexivity.
Qed.

(** ** C24 Links stay mutual *)

(** Whatever links, unlinks, attachments and replacements are made, when they all succeed, a
    token has another as successor as often as the other has it as predecessor. *)
Theorem C24_links_stay_mutual : forall ops h h',
  mutual h -> link_run h ops = Ok h' -> mutual h'.
Proof.
  induction ops as [|o ops IH]; intros h h' Hm H; cbn [link_run] in H; [congruence|].
  destruct (link_run1 h o) as [h1| | |] eqn:E; try discriminate. apply (IH h1 h'); [|exact H].
  destruct o as [a b|a b|ls fs|tm s t starts ends]; cbn [link_run1] in E.
  - injection E as <-. apply mutual_link. exact Hm.
  - apply (mutual_unlink h a b); assumption.
  - injection E as <-. apply attach_spec. exact Hm.
  - rewrite replace_split in E. destruct (seg_part tm s t starts ends) as [s'| | |]; try discriminate.
    destruct (link_part_spec h t starts ends Hm) as (h2 & E2 & Hm2 & _). cbn [rbind] in E. rewrite E2 in E.
    cbn [rbind] in E. congruence.
Qed.
Print Assumptions C24_links_stay_mutual.

(** Linking and unlinking change one link and no other; unlinking fails only without link. *)
Theorem C24_link_exact : forall h a b x y,
  edge (link_tokens h a b) x y <-> edge h x y \/ (x = a /\ y = b).
Proof.
  intros h a b x y. unfold edge. rewrite !(count_occ_In Nat.eq_dec).
  change (nc (link_tokens h a b) x y > 0 <-> nc h x y > 0 \/ x = a /\ y = b). rewrite nc_link. unfold is.
  destruct (Nat.eqb_spec a x), (Nat.eqb_spec b y); simpl; intuition (try lia; try congruence).
Qed.
Print Assumptions C24_link_exact.

Theorem C24_unlink_total : forall h a b, mutual h ->
  (edge h a b -> exists h', unlink_tokens h a b = Ok h') /\
  (~ edge h a b -> unlink_tokens h a b = Exit).
Proof.
  intros h a b Hm. unfold unlink_tokens. split.
  - intros He. destruct (erase_some b (nxt h a) He) as (l & ->).
    destruct (erase_some a (prc h b)) as (l' & ->); [|eauto]. apply prec_edge; assumption.
  - intros He. destruct (erase b (nxt h a)) as [l|] eqn:E; [|reflexivity]. exfalso. apply He.
    apply (count_occ_In Nat.eq_dec). pose proof (erase_cnt _ _ _ E b) as Hc. rewrite Nat.eqb_refl in Hc. lia.
Qed.
Print Assumptions C24_unlink_total.

(** Replacing a token that is linked: never fails when the times fit the segment; the old
    token ends up linked to nothing and out of the segment; the new starts inherit its
    predecessors and its place among the first tokens, the new ends its successors and its
    place among the last ones; no other link changes. *)
Theorem C24_replace_exact : forall tm h s t starts ends, mutual h ->
  (forall x, In x starts -> fits_begin tm s x) -> (forall x, In x ends -> fits_end tm s x) ->
  ~ In t starts -> ~ In t ends -> ~ edge h t t -> NoDup (sg_first s) -> NoDup (sg_last s) ->
  exists h' s', replace_token tm h s t starts ends = Ok (h', s') /\ mutual h' /\
    nxt h' t = [] /\ prc h' t = [] /\
    (forall x y, edge h' x y <->
       x <> t /\ y <> t /\ (edge h x y \/ (edge h x t /\ In y starts) \/ (In x ends /\ edge h t y))) /\
    (forall x, In x (sg_first s') <-> x <> t /\ (In x (sg_first s) \/ (In t (sg_first s) /\ In x starts))) /\
    (forall x, In x (sg_last s') <-> x <> t /\ (In x (sg_last s) \/ (In t (sg_last s) /\ In x ends))).
Proof.
  intros tm h s t starts ends Hm Hb He Hs Hen Htt Nf Nl.
  destruct (seg_part_spec tm s t starts ends Hb He Hs Hen Nf Nl) as (s' & Es & S1 & S2).
  destruct (link_part_spec h t starts ends Hm) as (h' & El & L1 & L2 & L3 & L4).
  exists h', s'. rewrite replace_split, Es. cbn [rbind]. rewrite El. cbn [rbind]. auto 10.
Qed.
Print Assumptions C24_replace_exact.

(** Attaching two segments links every last token of the one with every first of the other. *)
Theorem C24_attach_exact : forall h ls fs x y,
  edge (attach h ls fs) x y <-> edge h x y \/ (In x ls /\ In y fs).
Proof. intros. apply attach_spec. Qed.
Print Assumptions C24_attach_exact.

(** Removing a segment preceded by a single token joins that token with what follows. *)
Theorem C24_remove_segment_joins : forall h s p, mutual h -> NoDup (sg_first s) -> NoDup (sg_last s) ->
  (forall f q, In f (sg_first s) -> In q (prc h f) -> q = p) ->
  (exists f, In f (sg_first s) /\ In p (prc h f)) -> ~ In p (sg_last s) ->
  exists h', remove_segment h s = Ok h' /\
    (forall x y, edge h' x y <->
       (edge h x y /\ ~ (x = p /\ In y (sg_first s))) \/ (x = p /\ exists l, In l (sg_last s) /\ edge h l y)) /\
    (forall x y, In x (prc h' y) <->
       (edge h x y /\ ~ In x (sg_last s)) \/ (x = p /\ exists l, In l (sg_last s) /\ edge h l y)).
Proof. exact remove_spec. Qed.
Print Assumptions C24_remove_segment_joins.

(** With two tokens before the segment ("{ 1 / 2 }" then the segment "3" then "4"), only the
    first of them is joined with what follows. *)
Theorem C24_remove_segment_joins_all_refuted : exists h s h', mutual h /\
  NoDup (sg_first s) /\ NoDup (sg_last s) /\ remove_segment h s = Ok h' /\
  edge h 2 3 /\ edge h 3 4 /\ sg_first s = [3] /\ sg_last s = [3] /\
  edge h' 1 4 /\ ~ edge h' 2 4 /\ prc h' 4 = [1].
Proof.
  exists (links_of [(1, [3]); (2, [3]); (3, [4])]), {| sg_first := [3]; sg_last := [3]; sg_begin := 0; sg_end := 9 |}.
  eexists. split; [apply mutual_links_of|].
  split; [repeat constructor; intros []|]. split; [repeat constructor; intros []|].
  split; [vm_compute; reflexivity|]. split; [now left|]. split; [now left|]. split; [reflexivity|]. split; [reflexivity|].
  split; [vm_compute; now left|]. split; [vm_compute; tauto|reflexivity].
Qed.
Print Assumptions C24_remove_segment_joins_all_refuted.

(** ** C22 Order of the flattened list *)

(** Every token of the list is a first token of the segment or comes after one of its
    predecessors. *)
Theorem C22_after_a_predecessor : forall nx s U fuel, closed nx U -> incl (sg_first s) U -> length U < fuel ->
  exists l, flatten nx fuel s = Ok l /\
    forall t, In t l -> In t (sg_first s) \/ after_one l (fun p => In t (nx p)) t.
Proof.
  intros nx s U fuel Hc Hf Hl. destruct (flatten_spec nx s U fuel Hc Hf Hl) as (l & E & _ & Ho & _).
  exists l. split; [exact E|]. intros t Ht. apply in_split in Ht. destruct Ht as (l1 & l2 & ->).
  destruct (Ho l1 t l2 eq_refl) as [H|(p & Hp & _ & Hx)]; [auto|]. right.
  apply in_split in Hp. destruct Hp as (a & b & ->). exists a, b, l2, p. rewrite <- app_assoc. auto.
Qed.
Print Assumptions C22_after_a_predecessor.

(** When no token but the first ones has two predecessors, the order is topological. *)
Theorem C22_topological_without_joins : forall nx s U fuel, closed nx U -> incl (sg_first s) U -> length U < fuel ->
  (forall p q t, In t (nx p) -> In t (nx q) -> p = q) ->
  (forall t p, In t (sg_first s) -> ~ In t (nx p)) ->
  exists l, flatten nx fuel s = Ok l /\ forall t, In t l -> after_all l (fun p => In t (nx p)) t.
Proof.
  intros nx s U fuel Hc Hf Hl Hj Hfp. destruct (flatten_spec nx s U fuel Hc Hf Hl) as (l & E & _ & Ho & _).
  exists l. split; [exact E|]. intros t Ht l1 l2 El p Hp.
  destruct (Ho l1 t l2 El) as [H|(q & Hq & _ & Hx)]; [destruct (Hfp t p H Hp)|].
  rewrite (Hj p q t Hp Hx). exact Hq.
Qed.
Print Assumptions C22_topological_without_joins.

(** A segment without alternation is flattened into its words in order. *)
Theorem C22_chain_in_order : forall nx a l fuel b e,
  NoDup (a :: l) -> chain nx a l -> length l < fuel ->
  flatten nx fuel {| sg_first := [a]; sg_last := [List.last l a]; sg_begin := b; sg_end := e |} = Ok (a :: l).
Proof. intros nx a l fuel b e H1 H2 H3. exact (flatten_chain nx a l fuel H1 H2 H3). Qed.
Print Assumptions C22_chain_in_order.

(** The order is not topological after an alternation: in "x { a / b } c" (tokens 1, 2, 3, 4)
    c is listed before b. *)
Theorem C22_topological_refuted : exists nx s l U, closed nx U /\ incl (sg_first s) U /\
  flatten nx (S (length U)) s = Ok l /\ In 4 (nx 3) /\ l = [1; 2; 4; 3] /\
  ~ after_all l (fun p => In 4 (nx p)) 4.
Proof.
  exists (nxt (links_of [(1, [2; 3]); (2, [4]); (3, [4])])), {| sg_first := [1]; sg_last := [4]; sg_begin := 0; sg_end := 9 |},
    [1; 2; 4; 3], [1; 2; 3; 4].
  split; [intros a [<-|[<-|[<-|[<-|[]]]]]; vm_compute; intros x H; tauto|].
  split; [intros x [<-|[]]; now left|]. split; [vm_compute; reflexivity|]. split; [vm_compute; now left|].
  split; [reflexivity|]. intros H. specialize (H [1; 2] [3] eq_refl 3). vm_compute in H. 
  destruct H as [H|[H|[]]]; [now left|discriminate|discriminate].
Qed.
Print Assumptions C22_topological_refuted.

(** ** C23 Completeness of the flattened list *)

(** The list holds exactly the tokens of the segment. *)
Theorem C23_every_token : forall nx s U fuel, closed nx U -> incl (sg_first s) U -> length U < fuel ->
  exists l, flatten nx fuel s = Ok l /\ forall t, In t l <-> seg_token nx s t.
Proof.
  intros nx s U fuel Hc Hf Hl. destruct (flatten_spec nx s U fuel Hc Hf Hl) as (l & E & H & _). eauto.
Qed.
Print Assumptions C23_every_token.

(** ... once each, when no first token can be reached from another one. *)
Theorem C23_exactly_once : forall nx s U fuel, closed nx U -> incl (sg_first s) U -> length U < fuel ->
  NoDup (sg_first s) ->
  (forall f f', In f (sg_first s) -> In f' (sg_first s) -> reach nx (sg_last s) f f' -> f = f') ->
  exists l, flatten nx fuel s = Ok l /\ NoDup l /\ forall t, In t l <-> seg_token nx s t.
Proof.
  intros nx s U fuel Hc Hf Hl Hn Hr. destruct (flatten_spec nx s U fuel Hc Hf Hl) as (l & E & H & _ & Hd). eauto.
Qed.
Print Assumptions C23_exactly_once.

(** An optional beginning lists a token twice: "{ a / @ } b" gives a, b, b. *)
Theorem C23_exactly_once_refuted : exists nx s U, closed nx U /\ incl (sg_first s) U /\
  NoDup (sg_first s) /\ nx 1 = [2] /\ sg_first s = [1; 2] /\
  flatten nx (S (length U)) s = Ok [1; 2; 2].
Proof.
  exists (nxt (links_of [(1, [2])])), {| sg_first := [1; 2]; sg_last := [2]; sg_begin := 0; sg_end := 9 |}, [1; 2].
  split; [intros a [<-|[<-|[]]]; vm_compute; intros x H; tauto|].
  split; [intros x H; exact H|]. split; [repeat constructor; simpl; intuition discriminate|].
  split; [reflexivity|]. split; reflexivity.
Qed.
Print Assumptions C23_exactly_once_refuted.

(** An optional end hides its words: in "a { b / @ }" both are last tokens and b is not listed. *)
Theorem C23_optional_end_refuted : exists nx s U, closed nx U /\ incl (sg_first s) U /\
  In 2 (nx 1) /\ In 2 (sg_last s) /\ In 1 (sg_last s) /\ flatten nx (S (length U)) s = Ok [1].
Proof.
  exists (nxt (links_of [(1, [2])])), {| sg_first := [1]; sg_last := [1; 2]; sg_begin := 0; sg_end := 9 |}, [1; 2].
  split; [intros a [<-|[<-|[]]]; vm_compute; intros x H; tauto|].
  split; [intros x [<-|[]]; now left|]. split; [vm_compute; now left|]. split; [right; now left|].
  split; [now left|]. reflexivity.
Qed.
Print Assumptions C23_optional_end_refuted.

(** ** C55 A linked speech gives the alignment a well-formed graph *)

(** The tokens of a speech whose segments are linked as the parsers mean it, taken in any
    number, are exactly those that the alignment indexes, its first and last tokens are those
    of the first and last segments that are not empty, and the well-formedness on which the
    alignment theorems rest holds. *)
Theorem C55_speech_is_well_formed : forall h rank U fuel segs e,
  mutual h -> (forall t p, In p (prc h t) -> rank p < rank t) ->
  closed (nxt h) U -> (forall s, In s segs -> incl (sg_first s) U) -> length U < fuel ->
  linked_speech h None segs -> (forall t, te_prec e t = prc h t) ->
  exists d, build_dimension (nxt h) fuel segs = Ok d /\
    (forall t, In t (d_toks d) <-> speech_token (nxt h) segs t) /\ wf_dim e d /\
    (forall sf t, first_nonempty segs = Some sf -> (In t (d_first d) <-> In t (sg_first sf))) /\
    (forall sl t, last_nonempty segs = Some sl -> (In t (d_last d) <-> In t (sg_last sl) /\ In t (d_toks d))).
Proof. exact build_wf. Qed.
Print Assumptions C55_speech_is_well_formed.

(** An optional end followed by another segment ("a { b / @ }" then "c") is not well formed:
    the successor c has the predecessor b, which has no place in the graph, so that it is
    given the place of the start of the speech. *)
Theorem C55_optional_end_refuted : exists h segs d,
  mutual h /\ build_dimension (nxt h) 9 segs = Ok d /\
  segs = [{| sg_first := [1]; sg_last := [1; 2]; sg_begin := 0; sg_end := 9 |};
          {| sg_first := [3]; sg_last := [3]; sg_begin := 9; sg_end := 12 |}] /\
  prc h 2 = [1] /\ prc h 3 = [1; 2] /\
  d_toks d = [1; 3] /\ token_index d 2 = 0 /\ ~ In 2 (d_toks d).
Proof.
  exists (links_of [(1, [2; 3]); (2, [3])]). do 2 eexists. split; [apply mutual_links_of|].
  split; [|split; [reflexivity|]]; [vm_compute; reflexivity|].
  split; [reflexivity|]. split; [reflexivity|]. split; [reflexivity|]. split; [reflexivity|].
  intros [H|[H|[]]]; discriminate.
Qed.
Print Assumptions C55_optional_end_refuted.

(** ** Concrete cases *)
Example C24_case : exists h', link_run (links_of [(1, [2]); (2, [3])])
    [OLink 5 6; OReplace {| tk_begin := fun _ => (-1)%Z; tk_end := fun _ => (-1)%Z |}
       {| sg_first := [1]; sg_last := [3]; sg_begin := 0; sg_end := 9 |} 2 [5; 7] [6; 7];
     OUnlink 1 5; OAttach [3] [8; 9]] = Ok h' /\
  nxt h' 1 = [7] /\ prc h' 3 = [6; 7] /\ nxt h' 2 = [] /\ nxt h' 3 = [8; 9].
Proof. eexists. split; [reflexivity|]. vm_compute. auto. Qed.

Example C24_remove_case : let h := links_of [(1, [2; 3]); (2, [4]); (3, [4])] in
  exists h', remove_segment h {| sg_first := [2; 3]; sg_last := [2; 3]; sg_begin := 0; sg_end := 9 |} = Ok h' /\
    nxt h' 1 = [4; 4] /\ prc h' 4 = [1; 1].
Proof. eexists. split; [reflexivity|]. vm_compute. auto. Qed.

Example C22_case : let nx := nxt (links_of [(1, [2; 3]); (2, [4]); (3, [5; 6])]) in
  closed nx [1; 2; 3; 4; 5; 6] /\
  flatten nx 7 {| sg_first := [1]; sg_last := [4; 5; 6]; sg_begin := 0; sg_end := 9 |} = Ok [1; 2; 4; 3; 5; 6].
Proof.
  split; [|reflexivity]. intros a Ha x Hx. vm_compute in Ha.
  repeat (destruct Ha as [<-|Ha]; [vm_compute in Hx |- *; tauto|]). destruct Ha.
Qed.

(** "x { a / b } c" then "{ d / @ } e": well linked, so the hypotheses of C55 hold. *)
Example C55_case : let h := links_of [(1, [2; 3]); (2, [4]); (3, [4]); (4, [5; 6]); (5, [6])] in
  let segs := [{| sg_first := [1]; sg_last := [4]; sg_begin := 0; sg_end := 9 |};
               {| sg_first := []; sg_last := []; sg_begin := 9; sg_end := 9 |};
               {| sg_first := [5; 6]; sg_last := [6]; sg_begin := 9; sg_end := 12 |}] in
  linked_speech h None segs /\ closed (nxt h) [1; 2; 3; 4; 5; 6] /\ (forall t p, In p (prc h t) -> p < t) /\
  build_dimension (nxt h) 7 segs = Ok {| d_toks := [1; 2; 4; 3; 5; 6; 6]; d_first := [1]; d_last := [6; 6] |}.
Proof.
  cbn zeta. set (h := links_of _).
  assert (Hp : forall t, prc h t = match t with 2 => [1] | 3 => [1] | 4 => [2; 3] | 5 => [4] | 6 => [4; 5] | _ => [] end).
  { intros t. destruct t as [|[|[|[|[|[|[|t]]]]]]]; reflexivity. }
  assert (Hn : forall t, nxt h t = match t with 1 => [2; 3] | 2 => [4] | 3 => [4] | 4 => [5; 6] | 5 => [6] | _ => [] end).
  { intros t. destruct t as [|[|[|[|[|[|[|t]]]]]]]; reflexivity. }
  assert (S1 : forall t, seg_token (nxt h) {| sg_first := [1]; sg_last := [4]; sg_begin := 0; sg_end := 9 |} t <->
                 In t [1; 2; 3; 4]).
  { intros t. split.
    - intros (f & [<-|[]] & Hr). cbn [sg_last] in Hr. induction Hr as [|b c Hr IH Hb Hc]; [now left|].
      rewrite Hn in Hc. destruct IH as [<-|[<-|[<-|[<-|[]]]]]; simpl in Hc; simpl; try tauto.
      exfalso. apply Hb. now left.
    - intros Ht. exists 1. split; [now left|]. cbn [sg_last].
      assert (R2 : reach (nxt h) [4] 1 2) by (apply reach_step with 1; [constructor|intros [H|[]]; discriminate|rewrite Hn; simpl; auto]).
      assert (R3 : reach (nxt h) [4] 1 3) by (apply reach_step with 1; [constructor|intros [H|[]]; discriminate|rewrite Hn; simpl; auto]).
      assert (R4 : reach (nxt h) [4] 1 4) by (apply reach_step with 2; [exact R2|intros [H|[]]; discriminate|rewrite Hn; simpl; auto]).
      destruct Ht as [<-|[<-|[<-|[<-|[]]]]]; auto. constructor. }
  assert (S2 : forall t, seg_token (nxt h) {| sg_first := [5; 6]; sg_last := [6]; sg_begin := 9; sg_end := 12 |} t <->
                 In t [5; 6]).
  { intros t. split.
    - intros (f & Hf & Hr). cbn [sg_first sg_last] in *. induction Hr as [|b c Hr IH Hb Hc]; [exact Hf|].
      rewrite Hn in Hc. destruct IH as [<-|[<-|[]]]; simpl in Hc; simpl; tauto.
    - intros Ht. exists t. split; [exact Ht|constructor]. }
  split; [|split; [|split]].
  - cbn [linked_speech seg_empty sg_first sg_last].
    split; [|split; [exact I|split; [discriminate|split; [|split; [reflexivity|split; [|split; [|split; [discriminate|split; [|exact I]]]]]]]]].
    + intros t p Ht Hpt. left. rewrite S1 in *. rewrite Hp in Hpt.
      destruct Ht as [<-|[<-|[<-|[<-|[]]]]]; simpl in Hpt |- *; lia.
    + intros t [<-|[]]. apply S1. simpl. auto.
    + intros t p Ht Hpt. rewrite S2 in *. rewrite Hp in Hpt.
      destruct Ht as [<-|[<-|[]]]; simpl in Hpt |- *; lia.
    + split; [discriminate|]. intros t p [<-|[<-|[]]] [<-|[]]; unfold edge; rewrite Hn; simpl; auto.
    + intros t [<-|[]]. apply S2. simpl. auto.
  - intros a Ha. rewrite Hn. destruct Ha as [<-|[<-|[<-|[<-|[<-|[<-|[]]]]]]]; intros x Hx; simpl in Hx; simpl; tauto.
  - intros t p. rewrite Hp. destruct t as [|[|[|[|[|[|[|t]]]]]]]; simpl; intuition lia.
  - reflexivity.
Qed.
