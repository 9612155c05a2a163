(** C116: the alignment log of asclite says what was aligned with what. *)
From Coq Require Import String.
From Coq Require Import List ZArith NArith Arith Bool Lia.
From Verif Require Import Base Sgml_Model Clog_Model Clog_Spec Clog_Proofs1 Clog_Proofs2.
Import ListNotations.
Local Open Scope list_scope.

(** a run with references: under its heading the log lists the groups of every system, then every scored word *)
Theorem C116_log : forall skipped systems rows,
  (forall gs g, In gs systems -> In g gs -> group_ok g /\ (forall sp, In sp (g_refs g) -> sp <> [])) ->
  (forall x, In x rows -> said_ok (r_ref x) /\ said_ok (r_hyp x)) ->
  exists alog lists, run_log skipped systems rows = Ok alog /\ Forall2 (listed skipped) systems lists /\
    forall level msgs, level = 6%Z \/ level = 7%Z -> messages msgs (emitted level alog) ->
      read_log (print level msgs) = Some (concat lists ++ map row_entry rows).
Proof.
  intros skipped systems rows G R.
  assert (G' : Forall (Forall (fun g => group_ok g /\ speakers_ok g)) systems).
  { apply Forall_forall. intros gs K. apply Forall_forall. intros g K2. destruct (G gs g K K2) as [A1 A2]. split; [exact A1|]. apply Forall_forall. exact A2. }
  destruct (systems_good skipped systems G') as (l & es & E & L & H).
  assert (H2 : Forall2 (good (read_line names)) (map row_line rows) (map row_entry rows)).
  { clear - R. induction rows as [|x rows IH]; cbn [map]; constructor; [apply row_good; apply R; left; reflexivity|apply IH; intros; apply R; right; assumption]. }
  exists (header :: l ++ map row_line rows), es. unfold run_log. rewrite E. split; [reflexivity|]. split; [exact L|]. intros level msgs Lv M.
  destruct (good_all _ _ _ (Forall2_app H H2)) as [A1 A2]. rewrite (read_log_marked _ (l ++ map row_line rows)).
  exact A1.
  apply messages_marked; [destruct Lv as [-> | ->]; reflexivity|destruct Lv as [-> | ->]; exact M|]. constructor; [apply header_nl|exact A2].
Qed.

(** a run without references: under its heading the log lists every group, then its columns, or the group again if it was skipped *)
Theorem C116_generic : forall skipped align gs,
  (forall g, In g gs -> group_ok g /\ g_refs g = [] /\ (skipped g = false -> Forall (Forall said_ok) (align g))) ->
  exists es, listed_generic skipped align gs es /\
    forall level msgs, level = 6%Z \/ level = 7%Z -> messages msgs (emitted level (generic_log skipped align gs)) ->
      read_generic_log (print level msgs) = Some es.
Proof.
  intros skipped align gs G. destruct (generic_good skipped align gs (proj2 (Forall_forall _ _) G)) as (es & L & H).
  exists es. split; [exact L|]. intros level msgs Lv M. destruct (good_all _ _ _ H) as [A1 A2].
  rewrite (read_generic_marked _ (concat (map (generic_lines skipped align) gs))); [exact A1|].
  apply messages_marked; [destruct Lv as [-> | ->]; reflexivity|destruct Lv as [-> | ->]; exact M|]. constructor; [apply generic_header_nl|exact A2].
Qed.

(** at level 7 nothing else is printed; below level 6 nothing of it is *)
Theorem C116_only : forall msgs alog, messages msgs alog ->
  print 7 msgs = concat (map (fun l => B "[ALIGNMENT] " ++ l ++ [10%N]) alog).
Proof.
  intros msgs alog [<- _]. unfold print. induction msgs as [|[k m] msgs IH]; [reflexivity|]. cbn [map concat filter fst]. rewrite log_seven, IH.
  destruct (k =? 6)%Z eqn:E; [apply Z.eqb_eq in E; subst; reflexivity|reflexivity].
Qed.
Theorem C116_off : forall level msgs alog, (level <= 5)%Z -> messages msgs alog -> marked (print level msgs) = [].
Proof. exact print_off. Qed.

(** ** What the log does not say *)
Definition a_seg : seg := {| s_id := 12; s_t1 := 1500; s_t2 := 2750; s_spkr := B "jo"; s_file := B "f1"; s_chan := B "A" |}.
Definition a_tok (w : list N) : tok := {| t_id := 40; t_t1 := 1600; t_t2 := 1900; t_text := w; t_conf := Some 875%Z; t_prev := []; t_next := [41; 43]%Z |}.
Definition b_seg : seg := {| s_id := 13; s_t1 := 1000; s_t2 := 3000; s_spkr := B "f1"; s_file := B "f1"; s_chan := B "A" |}.
Definition b_tok (w : list N) : tok := {| t_id := 44; t_t1 := -1; t_t2 := -1; t_text := w; t_conf := None; t_prev := [40]%Z; t_next := [] |}.
Definition never (_ : group) := false.
Definition always (_ : group) := true.
(** nor which system a line belongs to: one log for two systems and for one *)
Theorem C116_system_refuted : forall skipped a b, systems_log skipped [a; b] = systems_log skipped [a ++ b].
Proof.
  intros skipped a b. cbn [systems_log]. induction a as [|g a IH]; cbn [ref_log app rbind].
  - destruct (ref_log skipped b); reflexivity.
  - destruct (empty_gap g); [cbn [rbind]|reflexivity|reflexivity|reflexivity]. destruct (ref_log skipped a) as [la| | |] eqn:Ea; cbn [rbind] in *.
    + destruct (ref_log skipped b) as [lb| | |]; cbn [rbind] in *; destruct (ref_log skipped (a ++ b)); cbn [rbind] in *; try discriminate; try reflexivity; try congruence.
      injection IH as IH. rewrite !app_nil_r in *. subst. rewrite <- !app_assoc. reflexivity.
    + destruct (ref_log skipped (a ++ b)); cbn [rbind] in *; try discriminate; congruence.
    + destruct (ref_log skipped (a ++ b)); cbn [rbind] in *; try discriminate; congruence.
    + destruct (ref_log skipped (a ++ b)); cbn [rbind] in *; try discriminate; congruence.
Qed.
(** without references the lines of a group do not say which system spoke *)
Theorem C116_dimension_refuted : exists g h, g_hyps g <> g_hyps h /\ group_lines true (B "SG") g = group_lines true (B "SG") h /\ group_lines true (B "SG") g <> [].
Proof.
  exists {| g_id := 3; g_refs := []; g_hyps := [[(a_seg, [a_tok (B "yes")])]; []]; g_spare := 14 |},
         {| g_id := 3; g_refs := []; g_hyps := [[]; [(a_seg, [a_tok (B "yes")])]]; g_spare := 14 |}.
  split; [discriminate|]. split; [reflexivity|discriminate].
Qed.
(** a comma in a word makes the log unreadable *)
Theorem C116_comma_refuted : exists x alog, run_log never [] [x] = Ok alog /\ messages (map (pair 6%Z) alog) alog /\
  read_log (print 7 (map (pair 6%Z) alog)) = None.
Proof.
  exists {| r_grp := 3; r_res := RI; r_ref := None; r_hyp := Some (a_seg, a_tok (B "1,000")) |}. eexists. split; [reflexivity|]. split.
  - split; [reflexivity|]. repeat constructor; try (cbn; lia); cbn [fst]; congruence.
  - vm_compute. reflexivity.
Qed.
(** a group without hypothesis gets a line of a hypothesis nobody made *)
Theorem C116_invented_refuted : exists g l, g_hyps g = [] /\ ref_log never [g] = Ok l /\
  exists e q, In e (match all_of (read_line names) l with Some es => es | None => [] end) /\ e_sides e = [no_side; q] /\ q_seg q = Some (g_spare g) /\ q_set q = Some 0%Z.
Proof.
  exists {| g_id := 3; g_refs := [[(a_seg, [a_tok (B "yes")])]]; g_hyps := []; g_spare := 14 |}. eexists. split; [reflexivity|]. split; [reflexivity|].
  eexists. eexists. split; [vm_compute; right; left; reflexivity|]. split; [reflexivity|]. split; reflexivity.
Qed.
(** a skipped group is listed twice *)
Theorem C116_twice_refuted : exists g l, ref_log always [g] = Ok l /\ l = group_lines false (B "NO") g ++ group_lines false (B "SG") g /\ group_lines false (B "NO") g <> [].
Proof.
  exists {| g_id := 3; g_refs := [[(a_seg, [a_tok (B "yes")])]]; g_hyps := [[(b_seg, [b_tok (B "yes")])]]; g_spare := 14 |}. eexists. split; [reflexivity|]. split; [reflexivity|discriminate].
Qed.
Print Assumptions C116_log.
Print Assumptions C116_generic.
Print Assumptions C116_only.
Print Assumptions C116_off.
Print Assumptions C116_system_refuted.
Print Assumptions C116_dimension_refuted.
Print Assumptions C116_comma_refuted.
Print Assumptions C116_invented_refuted.
Print Assumptions C116_twice_refuted.

(** a run: a group with a reference and a hypothesis, a silent gap, a group without hypothesis; three scored words among other messages *)
Definition g_word : group := {| g_id := 3; g_refs := [[(a_seg, [a_tok (B "yes")])]]; g_hyps := [[(b_seg, [b_tok (B "yeah")])]]; g_spare := 14 |}.
Definition gap_seg : seg := {| s_id := 15; s_t1 := 3000; s_t2 := 4000; s_spkr := B "inter_segment_gap"; s_file := B "f1"; s_chan := B "A" |}.
Definition g_gap : group := {| g_id := 4; g_refs := [[(gap_seg, [])]]; g_hyps := []; g_spare := 16 |}.
Definition g_alone : group := {| g_id := 5; g_refs := [[(a_seg, [])]]; g_hyps := []; g_spare := 17 |}.
Definition the_rows : list row :=
  [{| r_grp := 3; r_res := RS; r_ref := Some (a_seg, a_tok (B "yes")); r_hyp := Some (b_seg, b_tok (B "yeah")) |};
   {| r_grp := 3; r_res := RI; r_ref := None; r_hyp := Some (b_seg, b_tok (B "uh")) |};
   {| r_grp := 3; r_res := RD; r_ref := Some (a_seg, a_tok (B "no")); r_hyp := None |}].
Definition lets (l : list (list N)) : list (Z * list N) := (4%Z, B "Processing system s1") :: map (pair 6%Z) l ++ [(2%Z, B "done")].
Example log_case :
  (forall gs g, In gs [[g_word; g_gap; g_alone]] -> In g gs -> group_ok g /\ (forall sp, In sp (g_refs g) -> sp <> [])) /\
  (forall x, In x the_rows -> said_ok (r_ref x) /\ said_ok (r_hyp x)) /\
  exists alog, run_log never [[g_word; g_gap; g_alone]] the_rows = Ok alog /\ messages (lets alog) alog /\ length alog = 8 /\
    read_log (print 6 (lets alog)) =
      Some (group_entries "SG" g_word ++ group_entries "SG" (shown g_alone) ++ map row_entry the_rows).
Proof.
  assert (O : forall w, field_ok (B w) -> tok_ok (a_tok (B w)) /\ tok_ok (b_tok (B w))) by (intros; split; assumption).
  assert (Sa : seg_ok a_seg) by (repeat split; vm_compute; intuition discriminate).
  assert (Sb : seg_ok b_seg) by (repeat split; vm_compute; intuition discriminate).
  assert (Sg : seg_ok gap_seg) by (repeat split; vm_compute; intuition discriminate).
  split; [|split].
  - intros gs g [<-|[]] [<-|[<-|[<-|[]]]]; (split; [split; intros sp x K1 K2; cbn in K1; repeat (destruct K1 as [K1|K1]); subst; try contradiction; cbn in K2; repeat (destruct K2 as [K2|K2]); subst; try contradiction;
      (split; [assumption|cbn [snd]; repeat constructor; vm_compute; intuition discriminate])|intros sp [<-|[]]; discriminate]).
  - intros x [<-|[<-|[<-|[]]]]; cbn [r_ref r_hyp said_ok]; repeat split; try exact I; try apply Sa; try apply Sb; vm_compute; intuition discriminate.
  - eexists. split; [reflexivity|]. split; [split; [reflexivity|repeat constructor; try (cbn; lia); vm_compute; intuition discriminate]|].
    split; [reflexivity|vm_compute; reflexivity].
Qed.
(** a run without references *)
Definition g_two : group := {| g_id := 7; g_refs := []; g_hyps := [[(a_seg, [a_tok (B "yes")])]; [(b_seg, [])]; []]; g_spare := 14 |}.
Definition two_columns (_ : group) : list (list (option (seg * tok))) := [[Some (a_seg, a_tok (B "yes")); None; Some (b_seg, b_tok (B "uh"))]; [None; None; None]].
Example generic_case :
  (group_ok g_two /\ g_refs g_two = [] /\ (never g_two = false -> Forall (Forall said_ok) (two_columns g_two))) /\
  messages (lets (generic_log never two_columns [g_two])) (generic_log never two_columns [g_two]) /\
  exists e1 e2, read_generic_log (print 7 (lets (generic_log never two_columns [g_two]))) = Some (group_entries "SG" g_two ++ [e1; e2]) /\
    e_sides e1 = [side_of a_seg (a_tok (B "yes")); no_side; side_of b_seg (b_tok (B "uh"))] /\ e_sides e2 = [no_side; no_side; no_side].
Proof.
  assert (Sa : seg_ok a_seg) by (repeat split; vm_compute; intuition discriminate).
  assert (Sb : seg_ok b_seg) by (repeat split; vm_compute; intuition discriminate).
  split; [split; [split|split; [reflexivity|intros _]]|split].
  - intros sp x [].
  - intros sp x K1 K2. cbn in K1. repeat (destruct K1 as [K1|K1]); subst; try contradiction; cbn in K2; repeat (destruct K2 as [K2|K2]); subst; try contradiction;
      (split; [assumption|cbn [snd]; repeat constructor; vm_compute; intuition discriminate]).
  - assert (forall w, field_ok (B w) -> said_ok (Some (a_seg, a_tok (B w))) /\ said_ok (Some (b_seg, b_tok (B w)))) as O by (intros w Hw; split; split; assumption).
    repeat constructor; cbn [said_ok]; try exact I; try apply Sa; try apply Sb; vm_compute; intuition discriminate.
  - split; [reflexivity|repeat constructor; try (cbn; lia); vm_compute; intuition discriminate].
  - eexists. eexists. split; [vm_compute; reflexivity|]. split; reflexivity.
Qed.
