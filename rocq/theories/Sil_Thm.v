From Coq Require Import List ZArith Arith Bool Lia Sorted.
From Verif Require Import Base Sil_Model Sil_Spec Sil_Proofs.
Import ListNotations.
Local Open Scope Z_scope.

(** C61: the pieces in which ROVER aligns a conversation are a partition of the words of every
    file, in their order, and between two successive pieces there is a silence common to all
    files: no word overlaps the cut.  For files of which nothing beyond the conversation has
    been read. *)
Theorem C61_pieces : forall cs d, cs <> [] -> Forall ctm_ok cs -> 0 <= d ->
  exists fuel rows, pieces fuel cs d = Ok rows /\ (forall row, In row rows -> length row = length cs) /\
    (forall k, column rows k = nth k (map todo cs) []) /\
    (forall before after, rows = before ++ after -> before <> [] -> after <> [] -> separated before after).
Proof.
  intros cs d NE C D. exists (S (left_ cs)). apply pieces_ok; try assumption. lia.
Qed.
Print Assumptions C61_pieces.

(** Inputs with one conversation: all the words are in the pieces. *)
Theorem C61_one_conversation : forall fs d, fs <> [] -> 0 <= d ->
  (exists c t, Forall (fun f => f <> [] /\ (forall w, In w f -> conv w = c /\ turn w = t) /\ StronglySorted in_order (map cw f)) fs) ->
  exists inner rows, (forall fuel, rover_rows (S fuel) inner fs (map (fun _ => 0) fs) d = Ok [rows]) /\
    (forall k, column rows k = map cw (nth k fs [])) /\
    (forall before after, rows = before ++ after -> before <> [] -> after <> [] -> separated before after).
Proof.
  intros fs d NE D (c & t & H).
  assert (B : forall f, f <> [] -> (forall w, In w f -> conv w = c /\ turn w = t) -> locate_boundary f 0 = Z.of_nat (length f) - 1).
  { intros f N K. unfold locate_boundary. destruct (Z.eqb_spec 0 (Z.of_nat (length f) - 1)) as [E|E]; [exact E|].
    cbn [Z.to_nat skipn]. destruct f as [|k r]; [contradiction|].
    assert (L : forall l w, (forall x, In x l -> conv x = c /\ turn x = t) -> boundary_loop k l w = None).
    { induction l as [|x l IH]; intros w A; [reflexivity|]. cbn [boundary_loop]. destruct (A x (or_introl eq_refl)) as [-> ->].
      destruct (K k (or_introl eq_refl)) as [-> ->]. rewrite !Nat.eqb_refl. cbn [andb]. apply IH. intros y I. apply A. right. exact I. }
    rewrite L; [reflexivity|exact K]. }
  set (cs := map (fun f => open_ctm f 0) fs).
  assert (Z0 : zip_with open_ctm fs (map (fun _ => 0) fs) = cs).
  { unfold cs. clear. induction fs as [|f fs IH]; [reflexivity|]. cbn. f_equal. exact IH. }
  assert (TD : forall f, f <> [] -> (forall w, In w f -> conv w = c /\ turn w = t) -> todo (open_ctm f 0) = map cw f).
  { intros f N K. unfold todo, open_ctm. cbn [ws cur last_]. rewrite B by assumption. cbn [Z.to_nat skipn]. apply firstn_all2. rewrite map_length. lia. }
  assert (OK : Forall ctm_ok cs).
  { unfold cs. clear Z0. induction H as [|f fs (N & K & S) H IH]; [constructor|]. cbn. constructor; [|destruct fs; [constructor|apply IH; discriminate]].
    split; [|split].
    - cbn [open_ctm cur last_]. rewrite B by assumption. lia.
    - cbn [open_ctm ws last_]. rewrite B, map_length by assumption. lia.
    - rewrite TD by assumption. exact S. }
  destruct (C61_pieces cs d) as (inner & rows & E & R1 & R2 & R3); [unfold cs; destruct fs; [contradiction|discriminate]|exact OK|exact D|].
  exists inner, rows. split; [|split; [|exact R3]].
  - intro fuel. cbn [rover_rows]. rewrite Z0. destruct fs as [|f0 fr]; [contradiction|]. cbn [map]. cbn [Z.to_nat skipn].
    inversion H as [|? ? (N0 & K0 & _) HR]; subst. destruct f0 as [|k r]; [contradiction|].
    assert (SC : forallb (fun b => b) (zip_with (same_conv k) fr (map (fun _ => 0) fr)) = true).
    { destruct (K0 k (or_introl eq_refl)) as [KC _]. clear - HR KC. induction HR as [|f fr (N & K & _) HR IH]; [reflexivity|]. cbn [map zip_with forallb]. rewrite IH.
      unfold same_conv. cbn [Z.to_nat skipn]. destruct f as [|x f]; [contradiction|]. rewrite KC, (proj1 (K x (or_introl eq_refl))), Nat.eqb_refl. reflexivity. }
    rewrite SC. cbn [negb]. rewrite E. cbn [rbind].
    assert (DN : forallb (fun b => b) (zip_with (fun f s => negb (s <? Z.of_nat (length f) - 1)) ((k :: r) :: fr) (map (fun c => last_ c + 1) cs)) = true).
    { unfold cs. clear - B H. induction H as [|f l (N & K & _) H IH]; [reflexivity|]. cbn [map zip_with forallb]. rewrite IH.
      cbn [open_ctm last_]. rewrite B by assumption. destruct (Z.ltb_spec (Z.of_nat (length f) - 1 + 1) (Z.of_nat (length f) - 1)); [lia|reflexivity]. }
    rewrite DN. reflexivity.
  - intro k. rewrite R2. unfold cs. clear - H TD. revert k. induction H as [|f fs (N & K & _) H IH]; intros [|k]; cbn; try reflexivity; [apply TD; assumption|apply IH].
Qed.
Print Assumptions C61_one_conversation.

(** When a file has no more words in the conversation but the next conversation has been read,
    the first word of the next conversation is aligned with this one. *)
Definition w (c : nat) (s : Z) : cword := {| conv := c; turn := 0; cw := {| t1 := s; dur := 100 |} |}.
Theorem C61_foreign_word_refuted : exists fs rows rest, rover_rows 3 9 fs [0; 0] 1000 = Ok (rows :: rest) /\
  exists x, In x (nth 1 fs []) /\ conv x <> 0%nat /\ in_rows rows (cw x).
Proof.
  exists [[w 0 0; w 0 5000; w 1 7000; w 1 9000]; [w 0 0; w 1 7001; w 1 9000]]. eexists. eexists.
  split; [vm_compute; reflexivity|]. exists (w 1 7001). split; [right; left; reflexivity|]. split; [discriminate|].
  eexists. eexists. split; [right; left; reflexivity|]. split; [right; left; reflexivity|]. left. reflexivity.
Qed.
Print Assumptions C61_foreign_word_refuted.

(** A last conversation with one word in every file is lost. *)
Theorem C61_last_word_refuted : exists fs rows, rover_rows 3 9 fs [0; 0] 1000 = Ok rows /\
  exists x, (forall f, In f fs -> In x f) /\ forall r, In r rows -> ~ in_rows r (cw x).
Proof.
  exists [[w 0 0; w 1 7000]; [w 0 0; w 1 7000]]. eexists. split; [vm_compute; reflexivity|].
  exists (w 1 7000). split; [intros f [<-|[<-|[]]]; right; left; reflexivity|].
  intros r [<-|[]] (row & ws & [<-|[]] & [<-|[<-|[]]] & [I|[]]); discriminate.
Qed.
Print Assumptions C61_last_word_refuted.

(** The silence at a cut has the requested length in the first file only. *)
Theorem C61_silence_length_refuted : exists cs a b, Forall ctm_ok cs /\ pieces 9 cs 1000 = Ok [a; b] /\
  exists x y, in_rows [a] x /\ in_rows [b] y /\ t1 y - (t1 x + dur x) < 1000.
Proof.
  exists [open_ctm [w 0 0; w 0 5000] 0; open_ctm [w 0 0; w 0 200; w 0 5000] 0]. eexists. eexists.
  split; [|split; [vm_compute; reflexivity|]].
  - constructor; [|constructor; [|constructor]]; (split; [vm_compute; split; discriminate|split; [reflexivity|]]); vm_compute.
    + repeat constructor; discriminate.
    + repeat constructor; discriminate.
  - exists (cw (w 0 0)), (cw (w 0 200)). split; [|split; [|vm_compute; reflexivity]].
    + eexists. eexists. split; [left; reflexivity|]. split; [left; reflexivity|]. left. reflexivity.
    + eexists. eexists. split; [left; reflexivity|]. split; [right; left; reflexivity|]. left. reflexivity.
Qed.
Print Assumptions C61_silence_length_refuted.

Example pieces_case : exists rows, rover_rows 1 9 [[w 0 0; w 0 200; w 0 5000]; [w 0 50; w 0 4900]] [0; 0] 1000 = Ok [rows] /\
  length rows = 2%nat /\ column rows 0 = map cw [w 0 0; w 0 200; w 0 5000] /\ column rows 1 = map cw [w 0 50; w 0 4900].
Proof. eexists. split; [vm_compute; reflexivity|]. vm_compute. repeat split. Qed.
