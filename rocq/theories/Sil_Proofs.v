From Coq Require Import List ZArith Arith Bool Lia Sorted.
From Verif Require Import Base Sil_Model Sil_Spec.
Import ListNotations.
Local Open Scope res_scope.
Local Open Scope Z_scope.

Lemma overlap_eq : forall a b c d, overlap a b c d = Z.min b d - Z.max a c.
Proof. intros a b c d. unfold overlap. destruct (Z.ltb_spec a c); destruct (Z.ltb_spec b d); lia. Qed.

Lemma nth_error_todo : forall c i, 0 <= cur c <= i -> i <= last_ c ->
  nth_error (todo c) (Z.to_nat (i - cur c)) = nth_error (ws c) (Z.to_nat i).
Proof.
  intros c i A B. unfold todo.
  assert (F : forall (l : list tword) n k, (k < n)%nat -> nth_error (firstn n l) k = nth_error l k).
  { induction l as [|x l IH]; intros [|n] [|k] L; cbn; try reflexivity; try lia. apply IH. lia. }
  assert (K : forall (l : list tword) n k, nth_error (skipn n l) k = nth_error l (n + k)).
  { induction l as [|x l IH]; intros [|n] k; cbn; try reflexivity. - destruct k; reflexivity. - apply IH. }
  rewrite F, K by lia. f_equal. lia.
Qed.
Lemma word_at_ok : forall c i, ctm_ok c -> cur c <= i <= last_ c -> exists w, word_at c i = Ok w /\ nth_error (todo c) (Z.to_nat (i - cur c)) = Some w.
Proof.
  intros c i (A & B & _) I. unfold word_at. destruct (Z.ltb_spec i 0); [lia|].
  rewrite nth_error_todo by lia. destruct (nth_error (ws c) (Z.to_nat i)) as [w|] eqn:E; [exists w; auto|].
  apply nth_error_None in E. lia.
Qed.
Lemma gap_ok : forall c i, ctm_ok c -> cur c <= i <= last_ c -> exists gb ge w, gap c i = Ok (gb, ge) /\
  nth_error (todo c) (Z.to_nat (i - cur c)) = Some w /\ gb = t1 w + dur w /\
  (i < last_ c -> exists v, nth_error (todo c) (S (Z.to_nat (i - cur c))) = Some v /\ ge = t1 v).
Proof.
  intros c i C I. unfold gap. destruct (word_at_ok c i C I) as (w & E & N). rewrite E. cbn [rbind].
  destruct (Z.ltb_spec i (last_ c)) as [L|L].
  - destruct (word_at_ok c (i + 1) C ltac:(lia)) as (v & E' & N'). rewrite E'. cbn [rbind]. exists (t1 w + dur w), (t1 v), w.
    split; [reflexivity|]. split; [exact N|]. split; [reflexivity|]. intros _. exists v. split; [|reflexivity].
    rewrite <- N'. f_equal. lia.
  - cbn [rbind]. exists (t1 w + dur w), end_of_time, w. split; [reflexivity|]. split; [exact N|]. split; [reflexivity|]. lia.
Qed.

(** A cut of a file at index [i], with the silence from [b] to [e]. *)
Definition cut_ok (c : ctm) (i b e : Z) : Prop :=
  (last_ c < cur c /\ i = cur c) \/
  (cur c <= i <= last_ c /\ exists w, nth_error (todo c) (Z.to_nat (i - cur c)) = Some w /\ t1 w + dur w <= b /\
     (i < last_ c -> exists v, nth_error (todo c) (S (Z.to_nat (i - cur c))) = Some v /\ e <= t1 v)).
Lemma cut_weaken : forall c i b e b' e', cut_ok c i b e -> b <= b' -> e' <= e -> cut_ok c i b' e'.
Proof.
  intros c i b e b' e' [H|(H & w & N & A & B)] X Y; [left; exact H|]. right. split; [exact H|]. exists w. split; [exact N|]. split; [lia|].
  intro L. destruct (B L) as (v & V & E). exists v. split; [exact V|lia].
Qed.

Lemma gap_loop_ok : forall n c i b e, ctm_ok c -> cur c <= i -> Z.of_nat n = last_ c - i + 1 ->
  exists r, gap_loop n c i b e = Ok r /\
    (forall b' e' j, r = Some (b', e', j) -> b <= b' /\ e' <= e /\ b' < e' /\ cut_ok c j b' e').
Proof.
  induction n as [|n IH]; intros c i b e C I N; cbn [gap_loop].
  - exists None. split; [reflexivity|]. discriminate.
  - destruct (gap_ok c i C ltac:(lia)) as (gb & ge & w & E & NW & GB & GE). rewrite E. cbn [rbind].
    rewrite overlap_eq. destruct (Z.ltb_spec 0 (Z.min e ge - Z.max b gb)) as [L|L].
    + eexists. split; [reflexivity|]. intros b' e' j X. injection X as <- <- <-.
      split; [lia|]. split; [lia|]. split; [lia|]. right. split; [lia|]. exists w. split; [exact NW|]. split; [lia|].
      intro Y. destruct (GE Y) as (v & V & ->). exists v. split; [exact V|lia].
    + apply IH; [exact C|lia|lia].
Qed.
Lemma gap_at_times_ok : forall c b e, ctm_ok c -> b < e -> exists r, gap_at_times c b e = Ok r /\
  (forall b' e' j, r = Some (b', e', j) -> b <= b' /\ e' <= e /\ b' < e' /\ cut_ok c j b' e').
Proof.
  intros c b e C L. unfold gap_at_times. destruct (Z.ltb_spec (last_ c) (cur c)) as [X|X].
  - eexists. split; [reflexivity|]. intros b' e' j Y. injection Y as <- <- <-. split; [lia|]. split; [lia|]. split; [exact L|]. left. auto.
  - apply gap_loop_ok; [exact C|lia|lia].
Qed.

Lemma others_ok : forall cs b e, Forall ctm_ok cs -> b < e -> exists r, others cs b e = Ok r /\
  (forall l, r = Some l -> exists b' e', b <= b' /\ e' <= e /\ b' < e' /\ Forall2 (fun c i => cut_ok c i b' e') cs l).
Proof.
  induction cs as [|c cs IH]; intros b e H L; cbn [others].
  - eexists. split; [reflexivity|]. intros l X. injection X as <-. exists b, e. split; [lia|]. split; [lia|]. split; [exact L|constructor].
  - inversion H as [|? ? C H']; subst. destruct (gap_at_times_ok c b e C L) as (g & E & G). rewrite E. cbn [rbind].
    destruct g as [[[b1 e1] i]|]; [|eexists; split; [reflexivity|discriminate]].
    destruct (G b1 e1 i eq_refl) as (A1 & A2 & A3 & A4). destruct (IH b1 e1 H' A3) as (o & EO & O). rewrite EO. cbn [rbind].
    destruct o as [l|]; [|eexists; split; [reflexivity|discriminate]].
    destruct (O l eq_refl) as (b' & e' & B1 & B2 & B3 & B4). eexists. split; [reflexivity|]. intros l' X. injection X as <-.
    exists b', e'. split; [lia|]. split; [lia|]. split; [exact B3|]. constructor; [|exact B4]. apply (cut_weaken c i b1 e1); [exact A4|lia|lia].
Qed.

Lemma master_ok : forall n c cs d i, ctm_ok c -> Forall ctm_ok cs -> cur c <= i -> Z.of_nat n = last_ c - i + 1 -> 0 <= d ->
  exists r, master n c cs d i = Ok r /\
    (forall l, r = Some l -> exists b e j, b < e /\ Forall2 (fun c i => cut_ok c i b e) (c :: cs) l /\ hd_error l = Some j /\ cur c <= j <= last_ c).
Proof.
  induction n as [|n IH]; intros c cs d i C CS I N D; cbn [master].
  - eexists. split; [reflexivity|discriminate].
  - destruct (gap_ok c i C ltac:(lia)) as (gb & ge & w & E & NW & GB & GE). rewrite E. cbn [rbind].
    destruct (Z.ltb_spec (gb + d) ge) as [L|L]; [|apply IH; try assumption; lia].
    destruct (others_ok cs gb ge CS ltac:(lia)) as (o & EO & O). rewrite EO. cbn [rbind].
    destruct o as [l|]; [|apply IH; try assumption; lia].
    destruct (O l eq_refl) as (b & e & B1 & B2 & B3 & B4). eexists. split; [reflexivity|]. intros l' X. injection X as <-.
    exists b, e, i. split; [exact B3|]. split; [|split; [reflexivity|lia]]. constructor; [|exact B4].
    right. split; [lia|]. exists w. split; [exact NW|]. split; [lia|]. intro Y. destruct (GE Y) as (v & V & ->). exists v. split; [exact V|lia].
Qed.

(** What a step gives: a common cut, or the rest of all files, or nothing when nothing is left. *)
Lemma find_ok : forall cs d, cs <> [] -> Forall ctm_ok cs -> 0 <= d -> exists r, find_common_silence cs d = Ok r /\
  match r with
  | None => Forall (fun c => last_ c < cur c) cs
  | Some l =>
    (exists c i, In (c, i) (combine cs l) /\ cur c <= i <= last_ c) /\
    ((exists b e, b < e /\ Forall2 (fun c i => cut_ok c i b e) cs l) \/ l = map last_ cs)
  end.
Proof.
  intros [|c cs] d NE H D; [contradiction|]. inversion H as [|? ? C CS]; subst. unfold find_common_silence.
  assert (X : exists r, master (Z.to_nat (last_ c - cur c + 1)) c cs d (cur c) = Ok r /\
    (forall l, r = Some l -> exists b e j, b < e /\ Forall2 (fun c i => cut_ok c i b e) (c :: cs) l /\ hd_error l = Some j /\ cur c <= j <= last_ c)).
  { destruct C as (C1 & C2 & C3). apply master_ok; try assumption; [split; [exact C1|split; assumption]|lia|lia]. }
  destruct X as (m & E & M). rewrite E. cbn [rbind]. destruct m as [l|].
  - exists (Some l). split; [reflexivity|]. destruct (M l eq_refl) as (b & e & j & L & F & HJ & J). split; [|left; exists b, e; auto].
    destruct l as [|j' l]; [discriminate|]. injection HJ as ->. exists c, j. split; [left; reflexivity|exact J].
  - destruct (existsb (fun c => cur c <=? last_ c) (c :: cs)) eqn:EX.
    + eexists. split; [reflexivity|]. split; [|right; reflexivity].
      apply existsb_exists in EX. destruct EX as (c' & I & L). apply Z.leb_le in L. exists c', (last_ c'). split; [|lia].
      generalize (c :: cs) I. clear. intros l I. induction l as [|x l IH]; [destruct I|]. cbn. destruct I as [->|I]; [left; reflexivity|right; auto].
    + eexists. split; [reflexivity|]. apply Forall_forall. intros c' I. apply Z.nle_gt. intro L.
      assert (Y : existsb (fun c => cur c <=? last_ c) (c :: cs) = true) by (apply existsb_exists; exists c'; split; [exact I|apply Z.leb_le, L]). congruence.
Qed.

(** Indices at which the files are cut. *)
Definition index_ok (c : ctm) (i : Z) : Prop := (last_ c < cur c /\ (i = cur c \/ i = last_ c)) \/ cur c <= i <= last_ c.
Lemma skipn_skipn' : forall {A} (l : list A) n m, skipn m (skipn n l) = skipn (n + m) l.
Proof. induction l as [|x l IH]; intros [|n] m; cbn; try reflexivity. - destruct m; reflexivity. - apply IH. Qed.
Lemma firstn_add : forall {A} (l : list A) n m, firstn (n + m) l = firstn n l ++ firstn m (skipn n l).
Proof. induction l as [|x l IH]; intros [|n] m; cbn; try reflexivity. - destruct m; reflexivity. - f_equal. apply IH. Qed.
Lemma split_todo : forall c i, ctm_ok c -> index_ok c i -> piece c i ++ todo (advance c i) = todo c.
Proof.
  intros c i (A & B & _) [(L & X)|X]; unfold piece, todo, advance; cbn [ws cur last_].
  - rewrite !(skipn_all2 (ws c)) by (destruct X as [-> | ->]; [destruct (Z.leb_spec (cur c) (last_ c))|destruct (Z.leb_spec (last_ c) (last_ c))]; lia).
    rewrite !firstn_nil. reflexivity.
  - destruct (Z.leb_spec i (last_ c)); [|lia].
    replace (Z.to_nat (last_ c + 1 - cur c)) with (Z.to_nat (i - cur c + 1) + Z.to_nat (last_ c + 1 - (i + 1)))%nat by lia.
    rewrite firstn_add, skipn_skipn'. f_equal. f_equal. f_equal. lia.
Qed.
Lemma sorted_suffix : forall (l m : list tword), StronglySorted in_order (l ++ m) -> StronglySorted in_order m.
Proof. induction l as [|x l IH]; intros m H; [exact H|]. inversion H; subst. apply IH. assumption. Qed.
Lemma advance_ok : forall c i, ctm_ok c -> index_ok c i -> ctm_ok (advance c i).
Proof.
  intros c i C X. pose proof (split_todo c i C X) as S. destruct C as (A & B & D). rewrite <- S in D. apply sorted_suffix in D.
  split; [|split; [exact B|exact D]]. unfold advance. cbn [cur last_]. destruct X as [(L & [-> | ->])|X].
  - destruct (Z.leb_spec (cur c) (last_ c)); lia.
  - destruct (Z.leb_spec (last_ c) (last_ c)); lia.
  - destruct (Z.leb_spec i (last_ c)); lia.
Qed.
Lemma todo_length : forall c, ctm_ok c -> Z.of_nat (length (todo c)) = last_ c + 1 - cur c.
Proof. intros c (A & B & _). unfold todo. rewrite firstn_length, skipn_length. lia. Qed.

Lemma sorted_app : forall (l m : list tword) a b, StronglySorted in_order (l ++ m) -> In a l -> In b m -> in_order a b.
Proof.
  induction l as [|x l IH]; intros m a b H I J; [destruct I|]. inversion H as [|? ? S F]; subst. destruct I as [<-|I].
  - rewrite Forall_forall in F. apply F. apply in_or_app. right. exact J.
  - apply (IH m); assumption.
Qed.

(** A cut separates the words before it from those after it. *)
Lemma cut_separates : forall c i b e, ctm_ok c -> cut_ok c i b e ->
  (forall w, In w (piece c i) -> t1 w + dur w <= b) /\ (forall w, In w (todo (advance c i)) -> e <= t1 w).
Proof.
  intros c i b e C [(L & ->)|(I & w & N & B & E)].
  - pose proof (split_todo c (cur c) C ltac:(left; auto)) as S. pose proof (todo_length c C) as T.
    destruct (todo c) eqn:TD; [|cbn [length] in T; lia]. apply app_eq_nil in S. destruct S as [-> ->]. split; intros w [].
  - assert (IO : index_ok c i) by (right; exact I). pose proof (split_todo c i C IO) as S. pose proof C as (A & BL & SO).
    assert (PL : length (piece c i) = Datatypes.S (Z.to_nat (i - cur c))) by (unfold piece; rewrite firstn_length, skipn_length; lia).
    assert (NP : nth_error (piece c i) (Z.to_nat (i - cur c)) = Some w) by (rewrite <- S, nth_error_app1 in N by lia; exact N).
    destruct (exists_last (l := piece c i)) as (p & w' & EP); [intro X; rewrite X in PL; discriminate|].
    assert (W : w' = w).
    { rewrite EP in NP, PL. rewrite app_length in PL. cbn in PL. rewrite nth_error_app2 in NP by lia. replace (Z.to_nat (i - cur c) - length p)%nat with 0%nat in NP by lia. cbn in NP. congruence. }
    subst w'. split.
    + intros v I'. rewrite EP in I'. apply in_app_or in I'. destruct I' as [J|[<-|[]]]; [|exact B].
      assert (in_order v w).
      { rewrite <- S, EP, <- app_assoc in SO. apply (sorted_app p _ v w SO J). left. reflexivity. }
      unfold in_order in *. lia.
    + intros v J. destruct (todo (advance c i)) as [|f rest] eqn:TD; [destruct J|].
      assert (IL : i < last_ c).
      { pose proof (todo_length _ (advance_ok c i C IO)) as T. rewrite TD in T. cbn [length] in T. unfold advance in T. cbn [last_ cur] in T.
        destruct (Z.leb_spec i (last_ c)); lia. }
      destruct (E IL) as (u & NU & EU). rewrite <- S, nth_error_app2 in NU by lia. rewrite PL, Nat.sub_diag in NU. cbn in NU. injection NU as <-.
      assert (SF : StronglySorted in_order (f :: rest)) by (apply (sorted_suffix (piece c i)); rewrite S; exact SO).
      destruct J as [<-|J]; [exact EU|]. inversion SF as [|? ? _ F]; subst. rewrite Forall_forall in F. specialize (F v J). unfold in_order in F. lia.
Qed.
Lemma cut_index : forall c i b e, cut_ok c i b e -> index_ok c i.
Proof. intros c i b e [(A & B)|(A & _)]; [left; auto|right; exact A]. Qed.

(** Words left to do in all the files. *)
Definition left_ (cs : list ctm) : nat := fold_right (fun c n => (length (todo c) + n)%nat) 0%nat cs.

Lemma step_ok : forall cs l, Forall ctm_ok cs -> Forall2 index_ok cs l ->
  Forall ctm_ok (zip_with advance cs l) /\ length (zip_with advance cs l) = length cs /\ length (zip_with piece cs l) = length cs /\
  (forall k, nth k (zip_with piece cs l) [] ++ nth k (map todo (zip_with advance cs l)) [] = nth k (map todo cs) []) /\
  (left_ (zip_with advance cs l) <= left_ cs)%nat /\
  ((exists c i, In (c, i) (combine cs l) /\ cur c <= i <= last_ c) -> (left_ (zip_with advance cs l) < left_ cs)%nat).
Proof.
  intros cs l C H. induction H as [|c i cs l I H IH].
  - cbn. split; [constructor|]. split; [reflexivity|]. split; [reflexivity|]. split; [intros [|k]; reflexivity|]. split; [lia|]. intros (c & i & [] & _).
  - inversion C as [|? ? C1 C2]; subst. destruct (IH C2) as (A1 & A2 & A3 & A4 & A5 & A6).
    pose proof (split_todo c i C1 I) as S. cbn [zip_with map length left_ fold_right].
    split; [constructor; [apply advance_ok; assumption|exact A1]|]. split; [congruence|]. split; [congruence|].
    split; [intros [|k]; [exact S|apply A4]|].
    pose proof (todo_length c C1) as T0. pose proof (todo_length _ (advance_ok c i C1 I)) as T1. cbn [advance last_ cur] in T1.
    assert (SL : length (todo c) = (length (piece c i) + length (todo (advance c i)))%nat) by (rewrite <- S, app_length; reflexivity).
    fold (left_ (zip_with advance cs l)). fold (left_ cs). split; [lia|].
    intros (c' & i' & [J|J] & K).
    + injection J as <- <-. destruct (Z.leb_spec i (last_ c)); lia.
    + specialize (A6 (ex_intro _ c' (ex_intro _ i' (conj J K)))). lia.
Qed.

Lemma forall2_impl : forall {A B} (P Q : A -> B -> Prop) l m, (forall a b, P a b -> Q a b) -> Forall2 P l m -> Forall2 Q l m.
Proof. intros A B P Q l m I H. induction H; constructor; auto. Qed.
Lemma index_last : forall cs, Forall ctm_ok cs -> Forall2 index_ok cs (map last_ cs).
Proof.
  intros cs H. induction H as [|c cs (A & _) H IH]; [constructor|]. cbn. constructor; [|exact IH].
  destruct (Z_lt_ge_dec (last_ c) (cur c)); [left; auto|right; lia].
Qed.

Lemma in_zip_piece : forall cs l ws, In ws (zip_with piece cs l) -> exists c i, In (c, i) (combine cs l) /\ ws = piece c i.
Proof.
  induction cs as [|c cs IH]; intros [|i l] ws I; cbn in I; try destruct I as [<-|I]; try contradiction.
  - exists c, i. split; [left; reflexivity|reflexivity].
  - destruct (IH l ws I) as (c' & i' & J & E). exists c', i'. split; [right; exact J|exact E].
Qed.
Lemma in_zip_advance : forall cs l c', In c' (zip_with advance cs l) -> exists c i, In (c, i) (combine cs l) /\ c' = advance c i.
Proof.
  induction cs as [|c cs IH]; intros [|i l] ws I; cbn in I; try destruct I as [<-|I]; try contradiction.
  - exists c, i. split; [left; reflexivity|reflexivity].
  - destruct (IH l ws I) as (c' & i' & J & E). exists c', i'. split; [right; exact J|exact E].
Qed.
Lemma forall2_combine : forall {A B} (P : A -> B -> Prop) l m a b, Forall2 P l m -> In (a, b) (combine l m) -> P a b /\ In a l.
Proof.
  intros A B P l m a b H. induction H as [|x y l m R H IH]; intro I; [destruct I|]. destruct I as [I|I].
  - injection I as <- <-. split; [exact R|left; reflexivity].
  - destruct (IH I). split; [assumption|right; assumption].
Qed.

(** The words of a column come from the file. *)
Lemma column_in : forall rows (cs : list ctm) w, (forall row, In row rows -> length row = length cs) ->
  (forall k, column rows k = nth k (map todo cs) []) -> in_rows rows w -> exists c, In c cs /\ In w (todo c).
Proof.
  intros rows cs w L H (row & ws & IR & IW & I). destruct (In_nth _ _ [] IW) as (k & K & E).
  assert (J : In w (column rows k)).
  { unfold column. apply in_concat. exists (nth k row []). split; [apply in_map_iff; exists row; auto|rewrite E; exact I]. }
  rewrite H in J. rewrite (L row IR) in K. exists (nth k cs {| ws := []; cur := 0; last_ := 0 |}). split; [apply nth_In, K|].
  rewrite (nth_indep (map todo cs) [] (todo {| ws := []; cur := 0; last_ := 0 |})), map_nth in J by (rewrite map_length; exact K). exact J.
Qed.

Lemma pieces_ok : forall fuel cs d, cs <> [] -> Forall ctm_ok cs -> 0 <= d -> (left_ cs < fuel)%nat ->
  exists rows, pieces fuel cs d = Ok rows /\ (forall row, In row rows -> length row = length cs) /\
  (forall k, column rows k = nth k (map todo cs) []) /\
  (forall before after, rows = before ++ after -> before <> [] -> after <> [] -> separated before after).
Proof.
  induction fuel as [|fuel IH]; intros cs d NE C D F; [lia|]. cbn [pieces].
  destruct (find_ok cs d NE C D) as (m & E & M). rewrite E. cbn [rbind]. destruct m as [l|].
  - destruct M as (PR & CUT).
    assert (IX : Forall2 index_ok cs l).
    { destruct CUT as [(b & e & _ & H)| ->]; [|apply index_last, C]. apply (forall2_impl (fun c i => cut_ok c i b e)); [|exact H]. intros c i. apply cut_index. }
    destruct (step_ok cs l C IX) as (A1 & A2 & A3 & A4 & A5 & A6). specialize (A6 PR).
    destruct (IH (zip_with advance cs l) d) as (rows & ER & R1 & R2 & R3); [intro X; rewrite X in A2; destruct cs; [contradiction|discriminate]|exact A1|exact D|lia|].
    rewrite ER. cbn [rbind]. eexists. split; [reflexivity|]. split; [|split].
    + intros row [<-|I]; [exact A3|]. rewrite (R1 row I). exact A2.
    + intro k. unfold column in *. cbn [map concat]. rewrite R2. apply A4.
    + assert (ROWS : forall w, in_rows rows w -> exists c i, In (c, i) (combine cs l) /\ In w (todo (advance c i))).
      { intros w IW. destruct (column_in rows _ w R1 R2 IW) as (c' & I & J). destruct (in_zip_advance cs l c' I) as (c & i & K & ->). exists c, i. auto. }
      destruct CUT as [(b & e & L & H)| ->].
      * assert (SB : forall w, in_rows [zip_with piece cs l] w -> t1 w + dur w <= b).
        { intros w (row & ws & [<-|[]] & I & J). destruct (in_zip_piece cs l ws I) as (c & i & K & ->).
          destruct (forall2_combine _ cs l c i H K) as (CU & IC). rewrite Forall_forall in C. apply (proj1 (cut_separates c i b e (C c IC) CU)), J. }
        assert (SA : forall w, in_rows rows w -> e <= t1 w).
        { intros w IW. destruct (ROWS w IW) as (c & i & K & J). destruct (forall2_combine _ cs l c i H K) as (CU & IC).
          rewrite Forall_forall in C. apply (proj2 (cut_separates c i b e (C c IC) CU)), J. }
        intros [|row0 before] after EQ NB NA; [contradiction|]. injection EQ as <- EQ. destruct before as [|row1 before].
        -- cbn in EQ. subst after. exists b, e. auto.
        -- destruct (R3 (row1 :: before) after EQ ltac:(discriminate) NA) as (x & y & XY & SX & SY).
           exists (Z.max x b), (Z.max y e). split; [lia|]. split.
           ++ intros w (row & ws & [<-|IR] & IW & I).
              ** assert (t1 w + dur w <= b) by (apply SB; exists (zip_with piece cs l), ws; cbn; auto). lia.
              ** assert (t1 w + dur w <= x) by (apply SX; exists row, ws; auto). lia.
           ++ intros w IW. specialize (SY w IW). assert (e <= t1 w); [|lia]. apply SA. rewrite EQ. destruct IW as (row & ws & IR & X).
              exists row, ws. split; [apply in_or_app; right; exact IR|exact X].
      * (* the rest of all files: nothing comes after *)
        intros before after EQ NB NA. destruct before as [|row0 before]; [contradiction|]. injection EQ as <- EQ.
        assert (EM : rows = []).
        { destruct fuel as [|f]; [lia|]. cbn [pieces] in ER.
          destruct (find_ok (zip_with advance cs (map last_ cs)) d) as (m & E' & M); [intro X; rewrite X in A2; destruct cs; [contradiction|discriminate]|exact A1|exact D|].
          rewrite E' in ER. cbn [rbind] in ER. destruct m as [l'|]; [|injection ER as <-; reflexivity]. exfalso.
          destruct M as ((c' & i' & K & B) & _).
          assert (IC : In c' (zip_with advance cs (map last_ cs))) by (apply in_combine_l in K; exact K).
          destruct (in_zip_advance cs _ c' IC) as (c & i & K' & ->).
          assert (i = last_ c). { clear - K'. revert K'. generalize cs. intro l. induction l as [|x l IHl]; intro H; [destruct H|]. cbn in H. destruct H as [H|H]; [congruence|auto]. }
          subst i. unfold advance in B. cbn [cur last_] in B. destruct (Z.leb_spec (last_ c) (last_ c)); lia. }
        rewrite EM in EQ. symmetry in EQ. apply app_eq_nil in EQ. destruct EQ; contradiction.
  - exists []. split; [reflexivity|]. split; [intros row []|]. split.
    + intro k. cbn. clear - M C. revert k. induction M as [|c cs L M IH]; intros [|k]; cbn; try reflexivity.
      * inversion C; subst. pose proof (todo_length c ltac:(assumption)) as T. destruct (todo c); [reflexivity|cbn [length] in T; lia].
      * inversion C; subst. auto.
    + intros before after EQ NB NA. symmetry in EQ. apply app_eq_nil in EQ. destruct EQ; contradiction.
Qed.
