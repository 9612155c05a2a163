(** Splitting texts, and the parts of the reports. *)
From Coq Require Import String List ZArith NArith Arith Bool QArith Lia.
From Verif Require Import Base Store_Model Sig_Model Sig_Spec.
Import ListNotations.
Local Open Scope res_scope.
Local Open Scope nat_scope.

(** ** split *)
Lemma split_nonnil : forall c s, split c s <> [].
Proof. intros c [|x r]; cbn; [discriminate|]. destruct (x =? c)%N; [discriminate|]. destruct (split c r); discriminate. Qed.
Lemma split_sep : forall c a b, ~ In c a -> split c (a ++ c :: b) = a :: split c b.
Proof.
  intros c. induction a as [|x a IH]; intros b H; cbn.
  - rewrite N.eqb_refl. reflexivity.
  - destruct (N.eqb_spec x c) as [->|Hx]; [exfalso; apply H; left; reflexivity|]. rewrite IH; [reflexivity|]. intros K. apply H. right. exact K.
Qed.
Lemma split_none : forall c a, ~ In c a -> split c a = [a].
Proof.
  intros c. induction a as [|x a IH]; intros H; cbn; [reflexivity|].
  destruct (N.eqb_spec x c) as [->|Hx]; [exfalso; apply H; left; reflexivity|]. rewrite IH; [reflexivity|]. intros K. apply H. right. exact K.
Qed.
Lemma split_app : forall c a b, split c (a ++ c :: b) = split c a ++ split c b.
Proof.
  intros c. induction a as [|x a IH]; intros b; cbn; [rewrite N.eqb_refl; reflexivity|].
  destruct (x =? c)%N; [cbn; f_equal; apply IH|]. rewrite IH.
  pose proof (split_nonnil c a) as K. destruct (split c a) as [|h t]; [congruence|]. reflexivity.
Qed.
Lemma split_text : forall ls, Forall one_line ls -> split 10%N (text ls) = ls ++ [[]].
Proof.
  induction ls as [|l ls IH]; intros H; [reflexivity|]. inversion H as [|? ? H1 H2]; subst.
  change (text (l :: ls)) with ((l ++ [10%N]) ++ text ls). rewrite <- app_assoc. cbn [app].
  rewrite split_sep by exact H1. rewrite IH by exact H2. reflexivity.
Qed.

(** ** words *)
Lemma words_app : forall a b, words (a ++ 32%N :: b) = words a ++ words b.
Proof. intros. unfold words. rewrite split_app, filter_app. reflexivity. Qed.
Lemma words_blank : forall a, words (32%N :: a) = words a.
Proof. intros. change (32%N :: a) with ([] ++ 32%N :: a). rewrite words_app. reflexivity. Qed.
Lemma words_blanks : forall n a, words (blanks n ++ a) = words a.
Proof. induction n as [|n IH]; intros a; [reflexivity|]. change (blanks (S n) ++ a) with (32%N :: (blanks n ++ a)). rewrite words_blank. apply IH. Qed.
Lemma words_nil : words [] = [].
Proof. reflexivity. Qed.
Lemma words_only : forall n, words (blanks n) = [].
Proof. intros. rewrite <- (app_nil_r (blanks n)), words_blanks. reflexivity. Qed.
Lemma words_end : forall n a, words (a ++ blanks n) = words a.
Proof.
  intros [|n] a; [rewrite app_nil_r; reflexivity|]. change (blanks (S n)) with (32%N :: blanks n).
  rewrite words_app, words_only, app_nil_r. reflexivity.
Qed.
Lemma word_no : forall s c, word s -> In c [10; 32; 124]%N -> ~ In c s.
Proof.
  intros s c [_ H] Hc Hin. rewrite Forall_forall in H. destruct (H c Hin) as (A & B & D). cbn in Hc. intuition congruence.
Qed.
Lemma words_word : forall s, word s -> words s = [s].
Proof.
  intros s H. unfold words. rewrite split_none by (apply word_no; cbn; tauto). destruct H as [H _]. destruct s; [congruence|reflexivity].
Qed.
Lemma word_same : word (bytes "same").
Proof. split; [discriminate|]. repeat (apply Forall_cons; [repeat split; discriminate|]). constructor. Qed.
Lemma word_line : forall s, word s -> one_line s.
Proof. intros s H. apply word_no; cbn; tauto. Qed.

(** ** lines *)
Lemma one_line_app : forall a b, one_line a -> one_line b -> one_line (a ++ b).
Proof. intros a b A B H. apply in_app_or in H. destruct H; [apply A|apply B]; assumption. Qed.
Lemma one_line_repeat : forall c n, c <> 10%N -> one_line (repeat c n).
Proof. intros c n H K. apply repeat_spec in K. congruence. Qed.
Lemma one_line_blanks : forall n, one_line (blanks n).
Proof. intros. apply one_line_repeat. discriminate. Qed.
Lemma one_line_concat : forall ls, Forall one_line ls -> one_line (concat ls).
Proof. induction 1; cbn; [intros []|apply one_line_app; assumption]. Qed.
Lemma one_line_cons : forall c s, c <> 10%N -> one_line s -> one_line (c :: s).
Proof. intros c s H K [E|E]; [congruence|exact (K E)]. Qed.
Lemma one_line_nil : one_line [].
Proof. intros []. Qed.

(** ** center *)
Lemma centre_inv : forall s len r, centre s len = Ok r -> exists f g, r = blanks f ++ s ++ blanks g
  /\ (slen s <= len -> Z.of_nat (length r) = len)%Z /\ (f <= g <= S f \/ (len < slen s)%Z /\ f = 0 /\ g = 0).
Proof.
  intros s len r H. unfold centre in H. destruct (2000 <=? len)%Z; [discriminate|]. destruct (2000 <=? slen s)%Z; [discriminate|].
  injection H as <-. eexists. eexists. split; [reflexivity|].
  set (q := Z.quot (len - slen s) 2). assert (Q : (0 <= len - slen s -> 0 <= q <= len - slen s - q /\ len - slen s - q <= q + 1)%Z).
  { intros K. pose proof (Z.quot_pos (len - slen s) 2 K eq_refl). pose proof (Z.quot_rem' (len - slen s) 2). pose proof (Z.rem_bound_pos (len - slen s) 2 K eq_refl).
    unfold q. lia. }
  split.
  - intros K. unfold slen in *. unfold blanks. rewrite !app_length, !repeat_length. lia.
  - destruct (Z_le_gt_dec 0 (len - slen s)) as [K|K]; [left; lia|]. right. split; [lia|].
    assert (R : (len - slen s - q <= q <= 0)%Z); [|lia].
    pose proof (Z.quot_opp_l (slen s - len) 2 ltac:(lia)) as O. replace (- (slen s - len))%Z with (len - slen s)%Z in O by lia. change (Z.quot (len - slen s) 2) with q in O.
    pose proof (Z.quot_pos (slen s - len) 2 ltac:(lia) eq_refl). pose proof (Z.quot_rem' (slen s - len) 2). pose proof (Z.rem_bound_pos (slen s - len) 2 ltac:(lia) eq_refl). lia.
Qed.
Lemma centre_ok : forall s len, (len < 2000)%Z -> (slen s < 2000)%Z -> exists r, centre s len = Ok r.
Proof.
  intros s len A B. unfold centre. destruct (Z.leb_spec 2000 len); [lia|]. destruct (Z.leb_spec 2000 (slen s)); [lia|]. eexists. reflexivity.
Qed.
Lemma centre_words : forall s len r, centre s len = Ok r -> words r = words s.
Proof. intros s len r H. destruct (centre_inv _ _ _ H) as (f & g & -> & _). rewrite words_blanks, words_end. reflexivity. Qed.
Lemma centre_line : forall s len r, centre s len = Ok r -> one_line s -> one_line r.
Proof. intros s len r H K. destruct (centre_inv _ _ _ H) as (f & g & -> & _). repeat apply one_line_app; auto using one_line_blanks. Qed.
Lemma centre_nil : forall len r, centre [] len = Ok r -> exists k, r = blanks k.
Proof. intros len r H. destruct (centre_inv _ _ _ H) as (f & g & -> & _). exists (f + g). cbn. symmetry. apply repeat_app. Qed.
(** ** Columns *)
Lemma wide_words : forall m s a, words (wide m s ++ a) = words s ++ words a.
Proof.
  intros. unfold wide, right. cbn [app]. rewrite <- !app_assoc. cbn [app]. rewrite words_blank, words_blanks, words_app. reflexivity.
Qed.
Lemma wide_line : forall m s, one_line s -> one_line (wide m s).
Proof.
  intros m s H. unfold wide, right. repeat apply one_line_app; auto using one_line_blanks.
  - apply one_line_cons; [discriminate|apply one_line_nil].
  - apply one_line_cons; [discriminate|apply one_line_nil].
Qed.
Lemma wide_length : forall m s, (slen s <= m)%Z -> Z.of_nat (length (wide m s)) = (m + 2)%Z.
Proof. intros m s H. unfold wide, right, blanks, slen in *. rewrite !app_length, repeat_length. cbn. lia. Qed.

(** ** Loops *)
Lemma each_inv : forall {A B} (f : A -> res B) l ys, each f l = Ok ys -> Forall2 (fun x y => f x = Ok y) l ys.
Proof.
  intros A B f. induction l as [|x l IH]; intros ys H; cbn in H; [injection H as <-; constructor|].
  destruct (f x) as [y| | |] eqn:E; try discriminate. cbn [rbind] in H. destruct (each f l) as [zs| | |]; try discriminate.
  cbn [rbind] in H. injection H as <-. constructor; [exact E|apply IH; reflexivity].
Qed.
Lemma each_ok : forall {A B} (f : A -> res B) l, (forall x, In x l -> exists y, f x = Ok y) -> exists ys, each f l = Ok ys.
Proof.
  intros A B f. induction l as [|x l IH]; intros H; [eexists; reflexivity|].
  destruct (H x (or_introl eq_refl)) as [y Hy]. destruct (IH (fun z Hz => H z (or_intror Hz))) as [ys Hys].
  cbn. rewrite Hy. cbn [rbind]. rewrite Hys. eexists. reflexivity.
Qed.
Lemma F2_len : forall {A B} (P : A -> B -> Prop) l m, Forall2 P l m -> length l = length m.
Proof. induction 1; cbn; congruence. Qed.
Lemma F2_map : forall {A B C} (P : A -> B -> Prop) (f : A -> C) (g : B -> C) l m,
  Forall2 P l m -> (forall x y, In x l -> P x y -> g y = f x) -> map g m = map f l.
Proof.
  intros A B C P f g l m H. induction H as [|x y l m Hxy _ IH]; intros K; [reflexivity|]. cbn. f_equal; [apply K; [left; reflexivity|exact Hxy]|].
  apply IH. intros a b Ha. apply K. right. exact Ha.
Qed.
Lemma F2_Forall : forall {A B} (P : A -> B -> Prop) (Q : B -> Prop) l m,
  Forall2 P l m -> (forall x y, In x l -> P x y -> Q y) -> Forall Q m.
Proof.
  intros A B P Q l m H. induction H as [|x y l m Hxy _ IH]; intros K; constructor; [apply (K x); [left; reflexivity|exact Hxy]|].
  apply IH. intros a b Ha. apply K. right. exact Ha.
Qed.
Lemma F2_nth : forall {A B} (P : A -> B -> Prop) l m k x, Forall2 P l m -> nth_error l k = Some x -> exists y, nth_error m k = Some y /\ P x y.
Proof.
  intros A B P l m k x H. revert k. induction H as [|a b l m Hab _ IH]; intros [|k] E; try discriminate E.
  - injection E as ->. exists b. split; [reflexivity|exact Hab].
  - apply IH. exact E.
Qed.

(** ** Names *)
Lemma numbered_map : forall names, numbered names = map (fun t => (t, nth t names [])) (seq 0 (length names)).
Proof.
  intros names. unfold numbered.
  assert (G : forall k (l : list str), combine (seq k (length l)) l = map (fun t => (t, nth (t - k) l [])) (seq k (length l))).
  { intros k l. revert k. induction l as [|x l IH]; intros k; [reflexivity|]. cbn [length seq combine map]. rewrite Nat.sub_diag. cbn [nth].
    f_equal. rewrite IH. apply map_ext_in. intros t Ht. apply in_seq in Ht. replace (t - k) with (S (t - S k)) by lia. reflexivity. }
  rewrite G. apply map_ext. intros t. rewrite Nat.sub_0_r. reflexivity.
Qed.
Lemma numbered_in : forall names i a, In (i, a) (numbered names) -> i < length names /\ a = nth i names [] /\ In a names.
Proof.
  intros names i a H. rewrite numbered_map in H. apply in_map_iff in H. destruct H as (t & E & Ht). apply in_seq in Ht. injection E as -> <-.
  split; [lia|]. split; [reflexivity|]. apply nth_In. lia.
Qed.
Lemma numbered_nth : forall names s, s < length names -> nth_error (numbered names) s = Some (s, nth s names []).
Proof.
  intros names s H. rewrite numbered_map. rewrite nth_error_map. rewrite (nth_error_nth' _ 0) by (rewrite seq_length; exact H). rewrite seq_nth by exact H. reflexivity.
Qed.
Lemma numbered_others : forall names s,
  filter (fun o => negb (Nat.eqb s (fst o))) (numbered names) = map (fun t => (t, nth t names [])) (others (length names) s).
Proof.
  intros names s. rewrite numbered_map. unfold others. induction (seq 0 (length names)) as [|t l IH]; [reflexivity|].
  cbn [map filter fst]. rewrite (Nat.eqb_sym t s). destruct (s =? t); cbn [negb map]; rewrite IH; reflexivity.
Qed.
Lemma longest_fold : forall l m, (m <= longest m l)%Z /\ (forall s, In s l -> slen s <= longest m l)%Z.
Proof.
  induction l as [|x l IH]; intros m; cbn; [split; [lia|intros s []]|]. unfold longest in *. cbn.
  destruct (IH (if (m <? slen x)%Z then slen x else m)) as [A B]. destruct (Z.ltb_spec m (slen x)).
  - split; [lia|]. intros s [<-|H1]; [lia|]. apply B. exact H1.
  - split; [lia|]. intros s [<-|H1]; [lia|]. apply B. exact H1.
Qed.
Lemma longest_bound : forall l m k, (m <= k)%Z -> (forall s, In s l -> slen s <= k)%Z -> (longest m l <= k)%Z.
Proof.
  induction l as [|x l IH]; intros m k A B; cbn; [exact A|]. unfold longest in *. cbn. apply IH.
  - destruct (m <? slen x)%Z; [apply B; left; reflexivity|exact A].
  - intros s Hs. apply B. right. exact Hs.
Qed.
Lemma verdict_better : forall w a b, verdict w a b = better w a b.
Proof. intros [|p|p] a b; reflexivity. Qed.
Lemma verdict_against : forall names w i j, i <> j ->
  (if i <? j then verdict (w i j) (nth i names []) (nth j names []) else verdict (w j i) (nth j names []) (nth i names [])) = against names w i j.
Proof.
  intros names w i j H. rewrite !verdict_better. unfold against. destruct (Nat.ltb_spec i j).
  - rewrite Nat.min_l, Nat.max_r by lia. reflexivity.
  - rewrite Nat.min_r, Nat.max_l by lia. reflexivity.
Qed.
Lemma against_word : forall names w s t, Forall word names -> s < length names -> t < length names -> word (against names w s t).
Proof.
  intros names w s t H A B. rewrite Forall_forall in H. unfold against, better.
  destruct (w (Nat.min s t) (Nat.max s t)); [apply word_same| |]; apply H, nth_In; lia.
Qed.
