(** C65: the network of the words of a segment. *)
From Coq Require Import List NArith ZArith Arith Bool Lia.
From Verif Require Import Base Chan_Model Chan_Spec Chan_Proofs Wnet_Model Wnet_Spec Wnet_Proofs Chan_Proofs2.
Import ListNotations.
Local Open Scope Z_scope.

Lemma contributes_length ltr u f p : Contributes ltr u f p -> length f = length (spell u).
Proof. destruct 1; cbn [spell length]; [reflexivity|reflexivity|]. rewrite repeat_length, app_length. cbn [length]. lia. Qed.
Lemma contribute_length ltr us fs ps : Contribute ltr us fs ps -> length (List.concat fs) = length (flat_map spell us).
Proof. induction 1 as [|u f p us fs ps C _ IH]; cbn [List.concat flat_map]; [reflexivity|]. rewrite !app_length, IH, (contributes_length _ _ _ _ C). reflexivity. Qed.
Lemma tag_ignore l : forall ig, length l = length ig -> map ignore (tag l ig) = ig.
Proof. induction l as [|w l IH]; intros [|i ig] L; try discriminate L; cbn [tag length map ignore] in *; [reflexivity|]. rewrite IH; [reflexivity|lia]. Qed.
Lemma tag_units us ms : Forall2 marked us ms -> forall ltr fs ps, Contribute ltr us fs ps ->
  exists ts, tag (List.concat ms) (List.concat fs) = List.concat ts /\
    Forall2 (fun u m => marked u (map the_mword m)) us ts /\ map (map ignore) ts = fs.
Proof.
  induction 1 as [|u m us ms M _ IH]; intros ltr fs ps C; inversion C as [|? f p ? fs' ps' Cu Cus]; subst; cbn [List.concat].
  - exists []. repeat split; constructor.
  - destruct (IH _ _ _ Cus) as (ts & E & F & G).
    assert (L : length m = length f).
    { rewrite (contributes_length _ _ _ _ Cu). destruct M as [Mw _]. rewrite <- Mw, map_length. reflexivity. }
    exists (tag m f :: ts). split; [rewrite tag_app by exact L; rewrite E; reflexivity|]. split.
    + constructor; [|exact F]. rewrite tag_words by exact L. exact M.
    + cbn [map]. rewrite tag_ignore by exact L. rewrite G. reflexivity.
Qed.

(** The network of a range of whole units is the series of what the units contribute. *)
Theorem C65_network : forall ltr us0 us us1 ig0 fs ig1 ps,
  Forall well_formed (us0 ++ us ++ us1) -> Contribute ltr us fs ps ->
  length ig0 = length (flat_map spell us0) -> length ig1 = length (flat_map spell us1) ->
  net_from_words ltr (tag (mark_alternates false (flat_map spell (us0 ++ us ++ us1))) (ig0 ++ List.concat fs ++ ig1))
    (Z.of_nat (length (flat_map spell us0)) + 1) (Z.of_nat (length (flat_map spell us0)) + Z.of_nat (length (flat_map spell us)))
  = Ok (directed ltr ps).
Proof.
  intros ltr us0 us us1 ig0 fs ig1 ps W C L0 L1. apply Forall_app in W as [W0 W]. apply Forall_app in W as [W1 W2].
  rewrite !flat_map_app.
  destruct (mark_units us0 W0 (flat_map spell us ++ flat_map spell us1)) as (m0 & -> & M0).
  destruct (mark_units us W1 (flat_map spell us1)) as (m1 & -> & M1).
  assert (K0 : length (List.concat m0) = length (flat_map spell us0)) by (rewrite <- (marked_words _ _ M0), map_length; reflexivity).
  assert (K1 : length (List.concat m1) = length (flat_map spell us)) by (rewrite <- (marked_words _ _ M1), map_length; reflexivity).
  rewrite tag_app by congruence. rewrite tag_app by (rewrite K1; symmetry; eapply contribute_length; exact C).
  destruct (tag_units us m1 M1 ltr fs ps C) as (ts & -> & F & G).
  assert (T0 : length (tag (List.concat m0) ig0) = length (flat_map spell us0)) by (rewrite tag_length; congruence).
  assert (T1 : length (List.concat ts) = length (flat_map spell us)).
  { rewrite <- K1. clear - F M1. revert m1 M1. induction F as [|u t us ts Ft F IH]; intros m1 M1; inversion M1 as [|? m ? m1' Mm M1']; subst; cbn [List.concat]; [reflexivity|].
    rewrite !app_length, (IH _ M1'). f_equal. destruct Ft as [A _], Mm as [B _]. rewrite <- (map_length the_mword t), <- (map_length the_word), A, <- B, map_length. reflexivity. }
  unfold net_from_words. rewrite <- T0, <- T1.
  rewrite (net_units ltr us fs ps C W1 ts _ _ _ _ [] F G eq_refl).
  - rewrite add_parts. unfold directed. destruct ltr; [reflexivity|]. rewrite app_nil_r. reflexivity.
  - assert (length us <= length (flat_map spell us))%nat.
    { clear. induction us as [|u us IH]; cbn [flat_map length]; [lia|]. rewrite app_length. destruct u; cbn [spell length]; lia. }
    rewrite !app_length. lia.
Qed.

(** A word of the network. *)
Definition in_net (net : list part) (w : word) : Prop :=
  exists p, In p net /\ match p with Arc v => v = w | Par alts => exists a, In a alts /\ In (Some w) a end.

Definition wrd (s : str) (t d : Z) : word := {| conv := [102]%N; turn := [65]%N; sp := s; t1 := t; dur := d |}.
(** An empty alternative that is not the last one takes the first word of the next one with it. *)
Theorem C65_empty_alternative_refuted : exists us fs net w, Forall well_formed us /\
  Forall2 (fun u f => f = repeat false (length (spell u))) us fs /\
  net_from_words true (tag (mark_alternates false (flat_map spell us)) (List.concat fs)) 1 (Z.of_nat (length (flat_map spell us))) = Ok net /\
  In w (flat_map spell us) /\ ~ alt_mark w /\ ~ in_net net w.
Proof.
  eexists [Alts (wrd ALT_BEGIN 0 0) [wrd ALT_SEP 0 0; wrd [97]%N 1 2] (wrd ALT_END 0 0)], [repeat false 4], _, (wrd [97]%N 1 2).
  split. { constructor; [|constructor]. cbn [well_formed]. split; [reflexivity|]. split; [repeat constructor; discriminate|reflexivity]. }
  split. { repeat constructor. }
  split; [vm_compute; reflexivity|]. split; [right; right; left; reflexivity|].
  split; [apply is_marker_false; reflexivity|].
  intros (p & [<-|[]] & a & [<-|[]] & [X|[]]). discriminate X.
Qed.
(** An alternation ignored by "-m hyp" takes the next word of the segment out of the score, or reads
    beyond the words. *)
Definition ig_hyp : list word := [wrd ALT_BEGIN 0 0; wrd [120]%N 10 4; wrd ALT_END 0 0; wrd [121]%N 110 4; wrd [122]%N 120 4].
Definition ig_stm : list seg := [{| file := [102]; chan := [65]; s_t1 := 100; s_t2 := 200; text := [121] |}]%N.
Definition ig_opts : opts := {| reduce_ref := false; reduce_hyp := true; feedback := true; ups := 100 |}.
Theorem C65_ignored_alternation_refuted :
  (exists o hyp stm c x, align_ctm_to_stm o hyp stm = Ok (Some [c]) /\ cuts c = [x] /\
     net_from_words true (tag (mark_alternates false hyp) (flags c)) (c_from x) (c_to x) = Undef) /\
  (exists o hyp stm c c2 x net w, align_ctm_to_stm o hyp stm = Ok (Some [c; c2]) /\ cuts c = [x] /\
     net_from_words true (tag (mark_alternates false hyp) (flags c ++ flags c2)) (c_from x) (c_to x) = Ok net /\
     nth_error hyp 3 = Some w /\ nth_error (flags c) 3 = Some false /\ c_from x <= 4 <= c_to x /\ ~ alt_mark w /\ ~ in_net net w).
Proof.
  split.
  - eexists ig_opts, ig_hyp, ig_stm, _, _. split; [vm_compute; reflexivity|]. split; [reflexivity|]. vm_compute. reflexivity.
  - eexists ig_opts, (ig_hyp ++ [{| conv := [102]; turn := [66]; sp := [97]; t1 := 10; dur := 4 |}])%N, (ig_stm ++ [{| file := [102]; chan := [66]; s_t1 := 0; s_t2 := 200; text := [97] |}])%N, _, _, _, _, _.
    split; [vm_compute; reflexivity|]. split; [reflexivity|]. split; [vm_compute; reflexivity|]. split; [reflexivity|]. split; [reflexivity|].
    split; [cbn [c_from c_to]; lia|]. split; [apply is_marker_false; reflexivity|].
    intros (p & [<-|[]] & a & [<-|[<-|[]]] & [X|[]]); discriminate X.
Qed.

(** A case: a word, an alternation with an empty last alternative, an ignored word. *)
Example network_case : exists us fs ps, Forall well_formed us /\ Contribute false us fs ps /\ length us = 3%nat /\
  ps = [Arc (wrd [97]%N 1 2); Par [[Some (wrd [99]%N 5 2); Some (wrd [98]%N 3 2)]; [None]]] /\
  net_from_words false (tag (mark_alternates false (flat_map spell us)) (List.concat fs)) 1 (Z.of_nat (length (flat_map spell us))) = Ok (rev ps).
Proof.
  exists [Word (wrd [97]%N 1 2); Alts (wrd ALT_BEGIN 0 0) [wrd [98]%N 3 2; wrd [99]%N 5 2; wrd ALT_SEP 0 0] (wrd ALT_END 0 0); Word (wrd [100]%N 9 1)],
    [[false]; repeat false 5; [true]], [Arc (wrd [97]%N 1 2); Par [[Some (wrd [99]%N 5 2); Some (wrd [98]%N 3 2)]; [None]]].
  split.
  { constructor; [apply is_marker_false; reflexivity|]. constructor; [|constructor; [apply is_marker_false; reflexivity|constructor]].
    cbn [well_formed]. split; [reflexivity|]. split; [repeat constructor; discriminate|reflexivity]. }
  split.
  { change [Arc (wrd [97]%N 1 2); Par [[Some (wrd [99]%N 5 2); Some (wrd [98]%N 3 2)]; [None]]]
      with ([Arc (wrd [97]%N 1 2)] ++ [Par (map (alternative false) [[wrd [98]%N 3 2; wrd [99]%N 5 2]; []])] ++ ([] ++ [])).
    constructor; [constructor|]. constructor; [|constructor; [constructor|constructor]].
    apply c_alts.
    - change [wrd [98]%N 3 2; wrd [99]%N 5 2; wrd ALT_SEP 0 0] with ([wrd [98]%N 3 2; wrd [99]%N 5 2] ++ wrd ALT_SEP 0 0 :: []).
      constructor; [repeat constructor; apply is_marker_false; reflexivity|reflexivity|]. constructor. constructor.
    - exists [[wrd [98]%N 3 2; wrd [99]%N 5 2]], []. split; [reflexivity|]. split; [repeat constructor; discriminate|discriminate]. }
  split; [reflexivity|]. split; [reflexivity|]. vm_compute. reflexivity.
Qed.

Print Assumptions C65_network.
Print Assumptions C65_empty_alternative_refuted.
Print Assumptions C65_ignored_alternation_refuted.
