From Coq Require Import String.
From Coq Require Import List ZArith NArith Arith Bool Lia.
From Verif Require Import Base Sgml_Model Sgml_Proofs1 Skip_Model Gen_Model Gen_Spec.
Import ListNotations.
Local Open Scope list_scope.

(** ** Tags *)
(** the quotes after a piece of a tag; [None] if it cannot stand in a tag *)
Fixpoint scan (q : bool) (s : list N) : option bool :=
  match s with
  | [] => Some q
  | b :: r => if (b =? 38)%N || (b =? 60)%N then None else if (b =? 34)%N then scan (negb q) r
              else if ((b =? 62)%N && negb q) then None else scan q r
  end.
Lemma scan_app a b q q' : scan q a = Some q' -> scan q (a ++ b) = scan q' b.
Proof.
  revert q. induction a as [|x a IH]; intros q E; cbn [scan app] in *. { injection E as <-. reflexivity. }
  destruct ((x =? 38)%N || (x =? 60)%N); [discriminate|]. destruct (x =? 34)%N; [apply IH, E|].
  destruct ((x =? 62)%N && negb q); [discriminate|]. apply IH, E.
Qed.
Lemma lex_scan a r q q' acc : scan q a = Some q' -> lex (InTag q) acc (a ++ r) = lex (InTag q') (rev a ++ acc) r.
Proof.
  revert q acc. induction a as [|x a IH]; intros q acc E; cbn [scan app rev lex] in *. { injection E as <-. reflexivity. }
  destruct (x =? 38)%N eqn:A; cbn [orb] in E; [discriminate|]. destruct (x =? 60)%N; [discriminate|].
  rewrite <- app_assoc. cbn [app]. destruct (x =? 34)%N; [apply IH, E|].
  destruct ((x =? 62)%N && negb q); [discriminate|]. apply IH, E.
Qed.
Lemma scan_value v : value_ok v -> scan true v = Some true.
Proof.
  induction v as [|x v IH]; intros K; [reflexivity|]. inversion K as [|? ? (_ & A & C & D) V]; subst. cbn [scan].
  apply N.eqb_neq in A, C, D. rewrite A, C, D. cbn [orb negb]. rewrite andb_false_r. apply IH, V.
Qed.
Lemma scan_attr n v : scan false (B n) = Some false -> value_ok v -> scan false (attr n v) = Some false.
Proof.
  intros H V. unfold attr, QUOTE. rewrite (scan_app (B " ") _ false false eq_refl), (scan_app (B n) _ false false H).
  rewrite (scan_app (B "=") _ false false eq_refl), (scan_app [34%N] _ false true eq_refl).
  rewrite (scan_app v _ true true (scan_value v V)). reflexivity.
Qed.
Lemma scan_flag on n v : scan false (B n) = Some false -> (on = true -> value_ok v) -> scan false (flag_attr on n v) = Some false.
Proof. intros H V. destruct on; [apply scan_attr; auto|reflexivity]. Qed.

(** ** Attributes *)
Lemma read_value n v r acc : Forall (fun b => b <> 34%N) v ->
  read_attrs (Value n acc) (v ++ 34%N :: r) = option_map (fun x => ((n, rev acc ++ v) :: fst x, snd x)) (read_attrs After r).
Proof.
  revert acc. induction v as [|x v IH]; intros acc K; cbn [app read_attrs]. { rewrite N.eqb_refl, app_nil_r. reflexivity. }
  inversion K as [|? ? A V]; subst. apply N.eqb_neq in A. rewrite A, (IH (x :: acc) V). cbn [rev]. rewrite <- app_assoc. reflexivity.
Qed.
Lemma read_name n r acc : Forall (fun b => name_byte b = true) n ->
  read_attrs (Name acc) (n ++ 61%N :: r) = read_attrs (Start (rev acc ++ n)) r.
Proof.
  revert acc. induction n as [|x n IH]; intros acc K; cbn [app read_attrs]. { rewrite N.eqb_refl, app_nil_r. reflexivity. }
  inversion K as [|? ? A V]; subst. rewrite A.
  destruct (N.eqb_spec x 61) as [->|]; [cbv in A; discriminate|]. rewrite (IH (x :: acc) V). cbn [rev]. rewrite <- app_assoc. reflexivity.
Qed.
Definition is_name (s : list N) : Prop := s <> [] /\ Forall (fun b => name_byte b = true) s.
Lemma read_attr n v r : is_name (B n) -> Forall (fun b => b <> 34%N) v ->
  read_attrs After (attr n v ++ r) = option_map (fun x => ((B n, v) :: fst x, snd x)) (read_attrs After r).
Proof.
  intros [NE K] V. unfold attr, QUOTE. change (B " ") with [32%N]. change (B "=") with [61%N]. rewrite <- !app_assoc. cbn [app].
  set (w := B n) in *. clearbody w. destruct w as [|x w]; [contradiction|]. inversion K as [|? ? A W]; subst. cbn [app].
  assert (Hb : blank x = false) by (unfold blank; destruct (N.eqb_spec x 32); [subst; discriminate|]; destruct (N.eqb_spec x 9); [subst; discriminate|]; destruct (N.eqb_spec x 10); [subst; discriminate|]; destruct (N.eqb_spec x 13); [subst; discriminate|]; reflexivity).
  assert (Hs : (x =? 47)%N = false) by (destruct (N.eqb_spec x 47); [subst; discriminate|reflexivity]).
  cbn [read_attrs blank]. change (blank 32) with true. cbn [read_attrs]. rewrite Hb, Hs, A.
  rewrite (read_name w _ [x] W). cbn [rev app read_attrs]. rewrite N.eqb_refl.
  rewrite (read_value (x :: w) v r [] V). reflexivity.
Qed.
Lemma value_q v : value_ok v -> Forall (fun b => b <> 34%N) v.
Proof. intros V. eapply Forall_impl; [|exact V]. cbv beta. intros b (_ & A & _). exact A. Qed.
Lemma read_flag on n v r : is_name (B n) -> (on = true -> value_ok v) ->
  read_attrs After (flag_attr on n v ++ r) = option_map (fun x => ((if on then [(B n, v)] else []) ++ fst x, snd x)) (read_attrs After r).
Proof.
  intros H V. destruct on; cbn [flag_attr]. { rewrite read_attr; [reflexivity|exact H|apply value_q, V; reflexivity]. }
  cbn [app]. destruct (read_attrs After r) as [[? ?]|]; reflexivity.
Qed.
Lemma span_names n r : Forall (fun b => name_byte b = true) n -> match r with [] => True | b :: _ => name_byte b = false end -> span_name (n ++ r) = (n, r).
Proof.
  intros K H. induction n as [|x n IH]; cbn [app span_name].
  - destruct r as [|b r]; [reflexivity|]. cbn [span_name]. rewrite H. reflexivity.
  - inversion K; subst. rewrite H2, IH by assumption. reflexivity.
Qed.

(** ** Pieces *)
Definition blanks (s : list N) : Prop := forallb blank s = true.
(** a text that gives the pieces whatever comes next *)
Definition gives (s : list N) (p : list piece) : Prop :=
  forall acc r, blanks acc -> exists acc', blanks acc' /\ lex InText acc (s ++ r) = option_map (app p) (lex InText acc' r).
Lemma option_map_app p q (x : option (list piece)) : option_map (app p) (option_map (app q) x) = option_map (app (p ++ q)) x.
Proof. destruct x; cbn; [rewrite app_assoc|]; reflexivity. Qed.
Lemma gives_app a b p q : gives a p -> gives b q -> gives (a ++ b) (p ++ q).
Proof.
  intros A C acc r K. destruct (A acc (b ++ r) K) as (a1 & K1 & E1). destruct (C a1 r K1) as (a2 & K2 & E2).
  exists a2. split; [exact K2|]. rewrite <- app_assoc, E1, E2. apply option_map_app.
Qed.
Lemma gives_concat {A} (f : A -> list N) (g : A -> list piece) l : (forall x, In x l -> gives (f x) (g x)) -> gives (concat (map f l)) (concat (map g l)).
Proof.
  induction l as [|x l IH]; intros H; cbn [map concat].
  - intros acc r K. exists acc. split; [exact K|]. cbn [app]. destruct (lex InText acc r); reflexivity.
  - apply gives_app; [apply H; left; reflexivity|apply IH; intros y I; apply H; right; exact I].
Qed.
Lemma gives_blanks s : blanks s -> gives s [].
Proof.
  intros H acc r K. exists (rev s ++ acc). split.
  { unfold blanks in *. rewrite forallb_app, K, andb_true_r. rewrite forallb_forall in *. intros x I. apply H, in_rev, I. }
  revert acc K. induction s as [|x s IH]; intros acc K; cbn [app rev]. { destruct (lex InText acc r); reflexivity. }
  unfold blanks in H. cbn [forallb] in H. apply andb_true_iff in H as [Hx Hs]. cbn [lex].
  assert (A : (x =? 38)%N = false) by (destruct (N.eqb_spec x 38); [subst; discriminate|reflexivity]).
  assert (C : (x =? 60)%N = false) by (destruct (N.eqb_spec x 60); [subst; discriminate|reflexivity]).
  rewrite A, C, (IH Hs (x :: acc)). { rewrite <- app_assoc. reflexivity. }
  unfold blanks in *. cbn [forallb]. rewrite Hx. exact K.
Qed.
Lemma flush_blanks acc : blanks acc -> flush acc = [].
Proof. unfold flush, blanks. intros ->. reflexivity. Qed.
Lemma lex_tag body r : scan false body = Some false -> lex (InTag false) [] (body ++ 62%N :: r) = option_map (cons (Tag body)) (lex InText [] r).
Proof. intros H. rewrite (lex_scan _ _ _ _ _ H). cbn [lex]. rewrite app_nil_r, rev_involutive. reflexivity. Qed.
Lemma map_id {A} (x : option (list A)) : option_map (app []) x = x.
Proof. destruct x; reflexivity. Qed.
Lemma gives_tag body : scan false body = Some false -> gives (60%N :: body ++ [62%N]) [Tag body].
Proof.
  intros H acc r K. exists []. split; [reflexivity|]. cbn [app]. rewrite <- app_assoc. cbn [app lex]. change (60 =? 38)%N with false. rewrite N.eqb_refl.
  rewrite (flush_blanks acc K), map_id, (lex_tag body r H). reflexivity.
Qed.
Lemma lex_text s r acc : text_ok s -> lex InText acc (s ++ r) = lex InText (rev s ++ acc) r.
Proof.
  revert acc. induction s as [|x s IH]; intros acc K; [reflexivity|]. inversion K as [|? ? (_ & A & C) V]; subst. apply N.eqb_neq in A, C.
  cbn [app lex rev]. rewrite A, C, (IH _ V), <- app_assoc. reflexivity.
Qed.
Definition chars (s : list N) : list piece := match s with [] => [] | _ => [Chars s] end.
Lemma flush_text s : text_ok s -> flush (rev s) = chars s.
Proof.
  intros K. destruct s as [|x s]; [reflexivity|]. unfold flush. rewrite rev_involutive.
  replace (forallb blank (rev (x :: s))) with false; [reflexivity|]. symmetry. apply not_true_iff_false. intros F. rewrite forallb_forall in F.
  specialize (F x ltac:(apply in_rev; rewrite rev_involutive; left; reflexivity)).
  inversion K as [|? ? (A & _) _]; subst. unfold blank in F. rewrite !orb_true_iff, !N.eqb_eq in F. lia.
Qed.
Lemma gives_element body s body' : scan false body = Some false -> text_ok s -> scan false body' = Some false ->
  gives (60%N :: body ++ 62%N :: s ++ 60%N :: body' ++ [62%N]) (Tag body :: chars s ++ [Tag body']).
Proof.
  intros H K H' acc r A. exists []. split; [reflexivity|]. cbn [app]. rewrite <- app_assoc. cbn [app lex]. change (60 =? 38)%N with false. rewrite N.eqb_refl.
  rewrite (flush_blanks acc A), map_id, (lex_tag body _ H). rewrite <- app_assoc. rewrite (lex_text s _ [] K), app_nil_r. cbn [app].
  cbn [lex]. change (60 =? 38)%N with false. rewrite N.eqb_refl, <- app_assoc. cbn [app]. rewrite (lex_tag body' r H'), (flush_text s K).
  destruct (lex InText [] r); cbn [option_map app]; rewrite <- ?app_assoc; reflexivity.
Qed.

(** ** Elements *)
Definition adds (p : list piece) (k : list xml) : Prop :=
  forall n a ks below r, build (n, a, ks) below (p ++ r) = build (n, a, rev k ++ ks) below r.
Lemma adds_nil : adds [] [].
Proof. intros n a ks below r. reflexivity. Qed.
Lemma adds_app p q k l : adds p k -> adds q l -> adds (p ++ q) (k ++ l).
Proof. intros A C n a ks below r. rewrite <- app_assoc, A, C, rev_app_distr, <- app_assoc. reflexivity. Qed.
Lemma adds_concat {A} (f : A -> list piece) (g : A -> list xml) l : (forall x, In x l -> adds (f x) (g x)) -> adds (concat (map f l)) (concat (map g l)).
Proof.
  induction l as [|x l IH]; intros H; cbn [map concat]; [apply adds_nil|].
  apply adds_app; [apply H; left; reflexivity|apply IH; intros y I; apply H; right; exact I].
Qed.
Lemma adds_chars s : adds (chars s) (match s with [] => [] | _ => [Text s] end).
Proof. intros n a ks below r. destruct s; reflexivity. Qed.
Lemma list_eqb_refl s : list_eqb s s = true.
Proof. unfold list_eqb. destruct (list_eq_dec N.eq_dec s s); [reflexivity|contradiction]. Qed.
Lemma adds_element body n a p k : read_tag body = Some (Open n a) -> adds p k -> adds (Tag body :: p ++ [Tag (47%N :: n)]) [Elem n a k].
Proof.
  intros H A m b ks below r. cbn [app build]. rewrite H, <- app_assoc, A. cbn [app build]. unfold read_tag. rewrite list_eqb_refl.
  rewrite app_nil_r, rev_involutive. reflexivity.
Qed.
Lemma adds_single body n a : read_tag body = Some (Single n a) -> adds [Tag body] [Elem n a []].
Proof. intros H m b ks below r. cbn [app build]. rewrite H. reflexivity. Qed.
Lemma adds_instruction body : read_tag body = Some Instruction -> adds [Tag body] [].
Proof. intros H m b ks below r. cbn [app build]. rewrite H. reflexivity. Qed.
