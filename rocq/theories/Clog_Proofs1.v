(** Proofs about the alignment log: fields, sides, lines. *)
From Coq Require Import String.
From Coq Require Import List ZArith NArith Arith Bool Lia.
From Verif Require Import Base Sgml_Model Sgml_Proofs1 Clog_Model Clog_Spec.
Import ListNotations.
Local Open Scope list_scope.

(** ** Splitting *)
Lemma split_none c x : ~ In c x -> split c x = [x].
Proof.
  induction x as [|a x IH]; intros H; [reflexivity|]. cbn [split].
  destruct (a =? c)%N eqn:E; [apply N.eqb_eq in E; subst; exfalso; apply H; left; reflexivity|].
  rewrite IH by (intros K; apply H; right; exact K). reflexivity.
Qed.
Lemma split_app c x y : ~ In c x -> split c (x ++ c :: y) = x :: split c y.
Proof.
  induction x as [|a x IH]; intros H; cbn [split app]; [rewrite N.eqb_refl; reflexivity|].
  destruct (a =? c)%N eqn:E; [apply N.eqb_eq in E; subst; exfalso; apply H; left; reflexivity|].
  rewrite IH by (intros K; apply H; right; exact K). reflexivity.
Qed.
Lemma join_cons c h h2 t : join c (h :: h2 :: t) = h ++ c :: join c (h2 :: t).
Proof. unfold join. cbn [map concat app]. rewrite <- ?app_assoc. reflexivity. Qed.
Lemma split_join c l : l <> [] -> Forall (fun x => ~ In c x) l -> split c (join c l) = l.
Proof.
  induction l as [|h l IH]; intros H F; [congruence|]. inversion F as [|? ? F1 F2]; subst.
  destruct l as [|h2 t]; [unfold join; cbn [map concat]; rewrite app_nil_r; apply split_none; exact F1|].
  rewrite join_cons, split_app by exact F1. rewrite IH; [reflexivity|discriminate|exact F2].
Qed.
Lemma not_in_join c d l : c <> d -> Forall (fun x => ~ In d x) l -> ~ In d (join c l).
Proof.
  intros D. induction l as [|h l IH]; intros F; [intros []|]. inversion F as [|? ? F1 F2]; subst.
  destruct l as [|h2 t]; [unfold join; cbn [map concat]; rewrite app_nil_r; exact F1|].
  rewrite join_cons. intros K. apply in_app_iff in K. destruct K as [K|[K|K]]; [exact (F1 K)|congruence|exact (IH F2 K)].
Qed.

(** ** Fields *)
Lemma numeric_not b c : numeric b -> (c = 44%N \/ c = 10%N \/ c = 124%N) -> b <> c.
Proof. unfold numeric, isd. intros [H|[->| ->]] [->|[->| ->]]; try discriminate; lia. Qed.
Lemma numerics_not c s : (c = 44%N \/ c = 10%N \/ c = 124%N) -> Forall numeric s -> ~ In c s.
Proof. intros C F K. rewrite Forall_forall in F. exact (numeric_not c c (F c K) C eq_refl). Qed.
Lemma numerics_ok s : Forall numeric s -> field_ok s.
Proof. intros F. split; apply numerics_not; auto. Qed.
Lemma nil_ok : field_ok []. Proof. split; intros []. Qed.
Lemma int_ok z : field_ok (int_text z). Proof. apply numerics_ok, int_bytes. Qed.
Lemma time_ok t : field_ok (time_text t).
Proof. unfold time_text. destruct (0 <=? t)%Z; [apply numerics_ok, fixed_bytes|apply nil_ok]. Qed.
Lemma ids_join l : ids_text l = join 124 (map int_text l).
Proof.
  induction l as [|i l IH]; [reflexivity|]. destruct l as [|j r]; [cbn [ids_text map]; unfold join; cbn [map concat]; rewrite app_nil_r; reflexivity|].
  change (ids_text (i :: j :: r)) with (int_text i ++ B "|" ++ ids_text (j :: r)). rewrite IH. cbn [map]. rewrite join_cons. reflexivity.
Qed.
Lemma ids_ok l : field_ok (ids_text l).
Proof.
  rewrite ids_join. split; (apply not_in_join; [discriminate|]); apply Forall_forall; intros x K; apply in_map_iff in K;
    destruct K as (z & <- & _); apply numerics_not; auto; apply int_bytes.
Qed.
Lemma int_ne z : int_text z <> [].
Proof.
  unfold int_text. destruct (nat_text_ok (Z.abs_N z)) as (_ & _ & NE). destruct (z <? 0)%Z; cbn [app]; [discriminate|exact NE].
Qed.
Lemma fixed_ne k z : fixed k z <> [].
Proof. unfold fixed. cbv zeta. intros K. apply app_eq_nil in K. destruct K as [_ K]. apply app_eq_nil in K. destruct K as [_ K]. discriminate. Qed.
Lemma whole_int z : whole (int_text z) = Some z.
Proof. unfold whole. destruct (int_text z) as [|a b] eqn:E; [destruct (int_ne z E)|]. rewrite <- E, atoi_int. reflexivity. Qed.
Lemma decimal_fixed z : decimal (fixed 3 z) = Some (Some z).
Proof. unfold decimal. destruct (fixed 3 z) as [|a b] eqn:E; [destruct (fixed_ne 3 z E)|]. rewrite <- E, atof_in_fixed. reflexivity. Qed.
Lemma decimal_time t : decimal (time_text t) = Some (some_time t).
Proof. unfold time_text, some_time. destruct (0 <=? t)%Z; [apply decimal_fixed|reflexivity]. Qed.
Lemma numbers_ids l : numbers (ids_text l) = l.
Proof.
  destruct l as [|i l]; [reflexivity|]. unfold numbers. destruct (ids_text (i :: l)) as [|a b] eqn:E.
  - exfalso. rewrite ids_join in E. cbn [map] in E. unfold join in E. apply app_eq_nil in E. exact (int_ne i (proj1 E)).
  - rewrite <- E, ids_join, split_join.
    + rewrite map_map. transitivity (map (fun z : Z => z) (i :: l)); [apply map_ext; intros; apply atoi_int|apply map_id].
    + discriminate.
    + apply Forall_forall. intros x K. apply in_map_iff in K. destruct K as (z & <- & _). apply numerics_not; auto. apply int_bytes.
Qed.

(** ** Sides *)
Definition conf_text (c : option Z) : list N := match c with Some c => fixed 3 c | None => [] end.
Definition tok_fields (s : seg) (t : tok) : list (list N) :=
  [int_text (s_id s); time_text (s_t1 s); time_text (s_t2 s); s_spkr s; int_text (t_id t); time_text (t_t1 t); time_text (t_t2 t);
   t_text t; conf_text (t_conf t); ids_text (t_prev t); ids_text (t_next t)].
Definition seg_fields (s : seg) : list (list N) :=
  [int_text (s_id s); time_text (s_t1 s); time_text (s_t2 s); s_spkr s; []; []; []; []; []; []; []].
Definition no_fields : list (list N) := [[]; []; []; []; []; []; []; []; []; []; []].
Ltac comma := unfold COMMA; change (B ",") with [44%N].
Lemma csv_join s t : csv s t = join 44 (tok_fields s t).
Proof. unfold csv, tok_fields, join, conf_text. comma. cbn [map concat]. rewrite ?app_nil_r. rewrite <- ?app_assoc. cbn [app]. reflexivity. Qed.
Lemma seg_csv_join s : seg_csv s = join 44 (seg_fields s).
Proof.
  unfold seg_csv, seg_fields, join. comma. change (B ",,,,,,,") with [44;44;44;44;44;44;44]%N. cbn [map concat]. rewrite ?app_nil_r. rewrite <- ?app_assoc. cbn [app]. reflexivity.
Qed.
Lemma no_csv_join : no_csv = join 44 no_fields. Proof. reflexivity. Qed.
Lemma conf_ok c : field_ok (conf_text c). Proof. destruct c; [apply numerics_ok, fixed_bytes|apply nil_ok]. Qed.
Lemma tok_fields_ok s t : seg_ok s -> tok_ok t -> Forall field_ok (tok_fields s t).
Proof.
  intros (A & _ & _) H. unfold tok_fields. repeat constructor; try apply nil_ok; try apply int_ok; try apply time_ok; try apply ids_ok; try apply conf_ok; try apply A; apply H.
Qed.
Lemma seg_fields_ok s : seg_ok s -> Forall field_ok (seg_fields s).
Proof. intros (A & _ & _). unfold seg_fields. repeat (apply Forall_cons); try apply Forall_nil; try apply nil_ok; try apply int_ok; try apply time_ok; exact A. Qed.
Lemma no_fields_ok : Forall field_ok no_fields.
Proof. unfold no_fields. repeat (apply Forall_cons); try apply Forall_nil; apply nil_ok. Qed.

Definition mk_side (r1 r2 r3 r4 r5 r6 r7 r8 r9 r10 r11 : list N) : option side :=
  match decimal r2, decimal r3, decimal r6, decimal r7, decimal r9 with
  | Some a, Some b, Some c, Some d, Some e =>
      Some {| q_seg := whole r1; q_sbt := a; q_set := b; q_spkr := r4; q_tok := whole r5; q_bt := c; q_et := d; q_text := r8; q_conf := e;
              q_prev := numbers r10; q_next := numbers r11 |}
  | _, _, _, _, _ => None
  end.
Definition make (l : list (list N)) : option side :=
  match l with [r1; r2; r3; r4; r5; r6; r7; r8; r9; r10; r11] => mk_side r1 r2 r3 r4 r5 r6 r7 r8 r9 r10 r11 | _ => None end.
Lemma make_tok s t : make (tok_fields s t) = Some (side_of s t).
Proof.
  unfold make, tok_fields, mk_side. rewrite !decimal_time, !whole_int, !numbers_ids.
  replace (decimal (conf_text (t_conf t))) with (Some (t_conf t)); [reflexivity|].
  destruct (t_conf t); cbn [conf_text]; [symmetry; apply decimal_fixed|reflexivity].
Qed.
Lemma make_seg s : make (seg_fields s) = Some (side_of_seg s).
Proof. unfold make, seg_fields, mk_side. rewrite !decimal_time, !whole_int. reflexivity. Qed.
Lemma make_no : make no_fields = Some no_side. Proof. reflexivity. Qed.

Definition names : list (list N) := split 44 header.
Lemma read_ref k g f c e r1 r2 r3 r4 r5 r6 r7 r8 r9 r10 r11 h :
  length h = 11 ->
  read_side "Ref" names ([k; g; f; c; e] ++ [r1; r2; r3; r4; r5; r6; r7; r8; r9; r10; r11] ++ h) = mk_side r1 r2 r3 r4 r5 r6 r7 r8 r9 r10 r11.
Proof. intros H. do 12 (destruct h as [|? h]; [try discriminate|]); [|discriminate]. reflexivity. Qed.
Lemma read_hyp k g f c e r h1 h2 h3 h4 h5 h6 h7 h8 h9 h10 h11 :
  length r = 11 ->
  read_side "Hyp" names ([k; g; f; c; e] ++ r ++ [h1; h2; h3; h4; h5; h6; h7; h8; h9; h10; h11]) = mk_side h1 h2 h3 h4 h5 h6 h7 h8 h9 h10 h11.
Proof. intros H. do 12 (destruct r as [|? r]; [try discriminate|]); [|discriminate]. reflexivity. Qed.
Lemma make_length l q : make l = Some q -> length l = 11.
Proof. unfold make. do 12 (destruct l as [|? l]; [try discriminate; reflexivity|]). discriminate. Qed.
Lemma read_fields k g f c e r h qr qh :
  Forall field_ok [k; g; f; c; e] -> Forall field_ok r -> Forall field_ok h -> make r = Some qr -> make h = Some qh ->
  read_line names (join 44 ([k; g; f; c; e] ++ r ++ h)) = Some {| e_kind := k; e_grp := atoi g; e_file := f; e_chan := c; e_eval := e; e_sides := [qr; qh] |}.
Proof.
  intros F1 F2 F3 M1 M2. pose proof (make_length _ _ M1) as L1. pose proof (make_length _ _ M2) as L2. unfold read_line. cbv zeta.
  rewrite split_join; [|discriminate|].
  2:{ repeat (apply Forall_app; split); [revert F1|revert F2|revert F3]; apply Forall_impl; intros a K; exact (proj1 K). }
  replace (length ([k; g; f; c; e] ++ r ++ h) =? length names) with true.
  2:{ symmetry. apply Nat.eqb_eq. rewrite !app_length, L1, L2. reflexivity. }
  assert (R : read_side "Ref" names ([k; g; f; c; e] ++ r ++ h) = Some qr).
  { unfold make in M1. do 12 (destruct r as [|? r]; [try discriminate|]); [|discriminate]. rewrite read_ref by exact L2. exact M1. }
  assert (Hh : read_side "Hyp" names ([k; g; f; c; e] ++ r ++ h) = Some qh).
  { unfold make in M2. do 12 (destruct h as [|? h]; [try discriminate|]); [|discriminate]. rewrite read_hyp by exact L1. exact M2. }
  rewrite R, Hh. reflexivity.
Qed.

(** ** Lines *)
Lemma join_app c a b : a <> [] -> b <> [] -> join c (a ++ b) = join c a ++ c :: join c b.
Proof.
  induction a as [|x a IH]; intros A Bn; [congruence|]. destruct a as [|y a].
  - cbn [app]. destruct b as [|z b]; [congruence|]. rewrite join_cons. unfold join at 2. cbn [map concat]. rewrite app_nil_r. reflexivity.
  - change ((x :: y :: a) ++ b) with (x :: y :: (a ++ b)). rewrite join_cons. change (y :: (a ++ b)) with ((y :: a) ++ b).
    rewrite IH; [|discriminate|exact Bn]. rewrite join_cons, <- app_assoc. reflexivity.
Qed.
Lemma line_join type id file chan r h : r <> [] -> h <> [] ->
  line type id file chan (join 44 r) (join 44 h) = join 44 ([type; int_text id; file; chan; []] ++ r ++ h).
Proof.
  intros R Hn. rewrite join_app; [|discriminate|destruct r; [congruence|discriminate]]. rewrite join_app by assumption.
  unfold line. comma. change (B ",,") with [44; 44]%N. unfold join at 3. cbn [map concat]. rewrite ?app_nil_r, <- ?app_assoc. cbn [app]. rewrite <- ?app_assoc. cbn [app]. reflexivity.
Qed.
Definition entry_of type id file chan a b : entry := {| e_kind := type; e_grp := id; e_file := file; e_chan := chan; e_eval := []; e_sides := [a; b] |}.
Lemma five_ok type id file chan ev : field_ok type -> field_ok file -> field_ok chan -> field_ok ev -> Forall field_ok [type; int_text id; file; chan; ev].
Proof. intros. repeat apply Forall_cons; try apply Forall_nil; try assumption. apply int_ok. Qed.
Lemma no_nl l : Forall field_ok l -> ~ In 10%N (join 44 l).
Proof. intros F. apply not_in_join; [discriminate|]. revert F. apply Forall_impl. intros a K. exact (proj2 K). Qed.
(** a line, read *)
Definition good (f : list N -> option entry) (l : list N) (e : entry) : Prop := ~ In 10%N l /\ f l = Some e.
Lemma line_good type id file chan r h qr qh :
  field_ok type -> field_ok file -> field_ok chan -> Forall field_ok r -> Forall field_ok h -> make r = Some qr -> make h = Some qh ->
  good (read_line names) (line type id file chan (join 44 r) (join 44 h)) (entry_of type id file chan qr qh).
Proof.
  intros T F C R H M1 M2. pose proof (make_length _ _ M1) as L1. pose proof (make_length _ _ M2) as L2.
  rewrite line_join; [|destruct r; discriminate|destruct h; discriminate]. pose proof (five_ok type id file chan [] T F C nil_ok) as V. split.
  - apply no_nl. repeat (apply Forall_app; split); assumption.
  - rewrite (read_fields _ _ _ _ _ _ _ qr qh V R H M1 M2). rewrite atoi_int. reflexivity.
Qed.
