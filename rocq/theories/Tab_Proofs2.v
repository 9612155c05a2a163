(** Lemmas for the lines of the tables. *)
From Coq Require Import String List ZArith NArith Arith Bool QArith Lia Lqa Permutation Sorted.
From Verif Require Import Base Store_Model Sgml_Model Stats_Model Stats_Spec Stats_Thm Pad_Model Pad_Spec Pad_Thm Rep_Model Tab_Model Tab_Spec Tab_Proofs1.
Import ListNotations.
Local Open Scope res_scope.
Local Open Scope nat_scope.
Local Notation length := List.length.

(** ** Words *)
Definition solid (s : str) : Prop := s <> [] /\ Forall (fun c => c <> 32%N) s.
Lemma words_after_solid (s : str) : Forall (fun c => c <> 32%N) s -> forall w r, words_after w (s ++ r) = words_after (w ++ s) r.
Proof.
  induction 1 as [|c s C F IH]; intros w r; cbn [app words_after]; [rewrite app_nil_r; reflexivity|].
  replace (c =? 32)%N with false by (symmetry; apply N.eqb_neq; exact C). rewrite IH, <- app_assoc. reflexivity.
Qed.
Lemma words_solid s r : solid s -> words (s ++ 32%N :: r) = s :: words r.
Proof. intros (NE & F). unfold words. rewrite words_after_solid by exact F. cbn [app words_after]. rewrite N.eqb_refl. destruct s; [congruence|reflexivity]. Qed.
Lemma words_end s : solid s -> words s = [s].
Proof. intros (NE & F). unfold words. rewrite <- (app_nil_r s) at 1. rewrite words_after_solid by exact F. cbn [app words_after]. destruct s; [congruence|reflexivity]. Qed.
Lemma words_blanks k r : words (repeat 32%N k ++ r) = words r.
Proof. induction k as [|k IH]; [reflexivity|]. cbn [repeat app]. unfold words in *. cbn [words_after]. rewrite N.eqb_refl. exact IH. Qed.
Lemma words_blank r : words (32%N :: r) = words r.
Proof. apply (words_blanks 1). Qed.
Lemma words_blanks1 k r : words (repeat 32%N k ++ 32%N :: r) = words r.
Proof. rewrite words_blanks. apply words_blank. Qed.
Lemma words_padded s k r : solid s -> words (s ++ repeat 32%N k ++ 32%N :: r) = s :: words r.
Proof.
  intros F. destruct k as [|k]; [apply words_solid, F|]. cbn [repeat app]. rewrite words_solid by exact F. rewrite words_blanks1. reflexivity.
Qed.
(** what a mark leaves: a blank is no mark *)
Definition mark_ok (add mark : str) : Prop := (add = mark /\ Forall (fun c => c <> 32%N) mark) \/ (add = [32%N] /\ mark = []).
Lemma words_marked s add mark k r : solid s -> mark_ok add mark -> words ((s ++ add) ++ repeat 32%N k ++ 32%N :: r) = (s ++ mark) :: words r.
Proof.
  intros (NE & F) [(<- & M)|(-> & ->)].
  - apply words_padded. split; [destruct s; [congruence|discriminate]|]. apply Forall_app. split; assumption.
  - rewrite app_nil_r, <- app_assoc. change ([32%N] ++ repeat 32%N k ++ 32%N :: r) with (repeat 32%N (S k) ++ 32%N :: r). apply words_padded. split; assumption.
Qed.
Lemma decimal_solid n s : decimal n s -> solid s.
Proof.
  intros (F & _ & L & _). split; [destruct s; [cbn in L; lia|discriminate]|]. eapply Forall_impl; [|exact F]. unfold digit. intros c D. lia.
Qed.
Lemma point_solid p z s : point p z s -> solid s.
Proof.
  intros (a & b & n & -> & D & F & _). apply decimal_solid in D. destruct D as (NE & D). split.
  - destruct (z <? 0)%Z; [discriminate|]. destruct a; [congruence|discriminate].
  - apply Forall_app. split; [destruct (z <? 0)%Z; repeat constructor; discriminate|]. apply Forall_app. split; [exact D|]. constructor; [discriminate|]. eapply Forall_impl; [|exact F]. unfold digit. intros c G. lia.
Qed.
Lemma fixed_solid p z : solid (fixed p z).
Proof. apply (point_solid p z), fixed_point. Qed.

(** ** Cells *)
Lemma cell_ok v j w a : In j ["left"; "middle"; "right"]%string -> (3 <= w)%Z ->
  exists r, add_string_text v (bytes j) w a = Ok r /\ Z.of_nat (length r) = w
    /\ ((Z.of_nat (length v + length a) <= w)%Z -> exists i k, r = repeat 32%N i ++ (v ++ a) ++ repeat 32%N k).
Proof.
  intros J W. assert (J' : In (bytes j) [bytes "left"; bytes "middle"; bytes "right"]).
  { destruct J as [<-|[<-|[<-|[]]]]; [left|right; left|right; right; left]; reflexivity. }
  pose proof (C46_columns v a (bytes j) w ltac:(lia) J') as C. cbv zeta in C. destruct (add_string_text v (bytes j) w a) as [r| | |]; try (exfalso; lia).
  exists r. split; [reflexivity|]. destruct C as (L & F & _). split; [exact L|]. intros H. destruct (F ltac:(rewrite app_length; lia)) as (i & k & -> & _). exists i, k. reflexivity.
Qed.
Definition fits (w : Z) (v a : str) : Prop := (Z.of_nat (length v + length a) <= w)%Z.
Lemma cells_ok add mark : forall l : list (str * Z), Forall (fun c => 3 <= snd c)%Z l ->
  exists r, cells l add = Ok r /\ Z.of_nat (length r) = (Z.of_nat (length l) + fold_right Z.add 0 (map snd l))%Z
    /\ (mark_ok add mark -> Forall (fun c => solid (fst c) /\ fits (snd c) (fst c) add) l ->
        forall x, exists y, r ++ 32%N :: x = 32%N :: y /\ words y = map (fun c => fst c ++ mark) l ++ words x).
Proof.
  induction l as [|(v, w) l IH]; intros F; cbn [cells].
  - exists []. split; [reflexivity|]. split; [reflexivity|]. intros _ _ x. exists x. split; reflexivity.
  - destruct (cell_ok v "right" w add ltac:(cbn; tauto) (Forall_inv F)) as (c & -> & LC & PC). cbn [rbind]. destruct (IH (Forall_inv_tail F)) as (r & -> & LR & PR). cbn [rbind].
    exists (bytes " " ++ c ++ r). split; [reflexivity|]. split.
    + rewrite !app_length. change (length (bytes " ")) with 1. cbn [map snd fold_right length]. lia.
    + intros M G x. pose proof (Forall_inv G) as (SO & FI). cbn [fst snd] in SO, FI. destruct (PC FI) as (i & j & ->). destruct (PR M (Forall_inv_tail G) x) as (y & Y & WY).
      exists (repeat 32%N i ++ (v ++ add) ++ repeat 32%N j ++ 32%N :: y). split.
      * rewrite <- Y, <- !app_assoc. reflexivity.
      * rewrite words_blanks, (words_marked v add mark j y SO M), WY. reflexivity.
Qed.
(** ** Lines *)
Definition wide (inc : bool) (w : widths) : Prop :=
  (3 <= w_name w /\ 3 <= w_segs w /\ 3 <= w_refs w /\ Forall (fun z => 3 <= z) (w_cols w) /\ 3 <= w_serr w)%Z /\ length (w_cols w) = (if inc then 6 else 5).
Lemma map_fst_combine {A B} : forall (l : list A) (k : list B), length l = length k -> map fst (combine l k) = l /\ map snd (combine l k) = k.
Proof. induction l as [|x l IH]; intros [|y k] H; try discriminate H; [split; reflexivity|]. injection H as H. destruct (IH k H) as (A1 & A2). cbn. rewrite A1, A2. split; reflexivity. Qed.
Lemma line_ok inc w just name segs refs vals add mark serr nce : wide inc w -> In just ["left"; "middle"]%string -> length vals = (if inc then 6 else 5) ->
  exists l, line w just name segs refs vals add serr nce = Ok l /\ Z.of_nat (length l) = full inc w
    /\ (mark_ok add mark -> fits (w_name w) name [] -> fits (w_segs w) segs [] -> fits (w_refs w) refs [] ->
        Forall2 (fun v z => fits z v add) vals (w_cols w) -> fits (w_serr w) serr [] -> fits 9 nce [] ->
        solid segs -> solid refs -> Forall solid vals -> solid serr -> solid nce ->
        row name segs refs (map (fun v => v ++ mark) vals) serr nce l).
Proof.
  intros ((W1 & W2 & W3 & W4 & W5) & LW) J LV. unfold line.
  destruct (cell_ok name just (w_name w) [] ltac:(cbn in *; tauto) W1) as (a & -> & LA & PA). cbn [rbind].
  destruct (cell_ok segs "right" (w_segs w) [] ltac:(cbn; tauto) W2) as (b & -> & LB & PB). cbn [rbind].
  destruct (cell_ok refs "right" (w_refs w) [] ltac:(cbn; tauto) W3) as (c & -> & LC & PC). cbn [rbind].
  destruct (map_fst_combine vals (w_cols w) ltac:(congruence)) as (M1 & M2).
  assert (F3 : Forall (fun c : str * Z => (3 <= snd c)%Z) (combine vals (w_cols w))).
  { apply Forall_forall. intros x I. rewrite Forall_forall in W4. apply W4. rewrite <- M2. apply in_map, I. }
  destruct (cells_ok add mark _ F3) as (d & -> & LD & PD). cbn [rbind].
  destruct (cell_ok serr "right" (w_serr w) [] ltac:(cbn; tauto) W5) as (e & -> & LE & PE). cbn [rbind].
  destruct (cell_ok nce "middle" w_nce [] ltac:(cbn; tauto) ltac:(unfold w_nce; lia)) as (f & -> & LF & PF). cbn [rbind].
  eexists. split; [reflexivity|]. split.
  - rewrite !app_length. rewrite M2, combine_length, LV, LW in LD. unfold full. repeat match goal with |- context [length (bytes ?s)] => let n := eval vm_compute in (length (bytes s)) in change (length (bytes s)) with n end. destruct inc; lia.
  - intros MK FN FS FR FV FE FC SS SR SV SE SN. unfold fits in *. change (@length N []) with 0 in *. rewrite Nat.add_0_r in *.
    destruct (PA ltac:(lia)) as (i1 & k1 & ->). destruct (PB ltac:(lia)) as (i2 & k2 & ->). destruct (PC ltac:(lia)) as (i3 & k3 & ->). destruct (PE ltac:(lia)) as (i4 & k4 & ->). destruct (PF ltac:(unfold w_nce; lia)) as (i5 & k5 & ->).
    assert (G : Forall (fun c : str * Z => solid (fst c) /\ fits (snd c) (fst c) add) (combine vals (w_cols w))).
    { clear - FV SV. revert SV. induction FV as [|v z vs zs V F IH]; intros SV; [constructor|]. inversion SV; subst. constructor; [split; assumption|apply IH; assumption]. }
    rewrite !app_nil_r.
    destruct (PD MK G (repeat 32%N i4 ++ serr ++ repeat 32%N k4 ++ 32%N :: 124%N :: 32%N :: repeat 32%N i5 ++ nce ++ repeat 32%N k5 ++ 32%N :: [124%N])) as (y & Y & WY).
    exists i1, k1, (repeat 32%N i2 ++ segs ++ repeat 32%N k2 ++ 32%N :: repeat 32%N i3 ++ refs ++ repeat 32%N k3 ++ 32%N :: 124%N :: 32%N :: y). split.
    + rewrite <- Y. change (bytes " |") with [32%N; 124%N]. change (bytes " | ") with [32%N; 124%N; 32%N]. change (bytes " ") with [32%N]. rewrite <- !app_assoc. reflexivity.
    + rewrite words_blanks, (words_padded segs k2 _ SS), words_blanks, (words_padded refs k3 _ SR). change (124%N :: 32%N :: y) with ([124%N] ++ 32%N :: y). rewrite words_solid by (split; [discriminate|repeat constructor; discriminate]).
      rewrite WY, words_blanks, (words_padded serr k4 _ SE). change (124%N :: 32%N :: repeat 32%N i5 ++ nce ++ repeat 32%N k5 ++ [32%N; 124%N]) with ([124%N] ++ 32%N :: repeat 32%N i5 ++ nce ++ repeat 32%N k5 ++ [32%N; 124%N]).
      rewrite words_solid by (split; [discriminate|repeat constructor; discriminate]). rewrite words_blanks, (words_padded nce k5 _ SN). rewrite words_end by (split; [discriminate|repeat constructor; discriminate]).
      replace (map (fun c : list N * Z => fst c ++ mark) (combine vals (w_cols w))) with (map (fun v => v ++ mark) vals); [reflexivity|]. rewrite <- M1 at 1. rewrite map_map. reflexivity.
Qed.
Lemma many_length c n : length (bytes c) = 1 -> (0 <= n)%Z -> Z.of_nat (length (many c n)) = n.
Proof.
  intros C H. unfold many. assert (G : forall k, length (concat (repeat (bytes c) k)) = k) by (induction k as [|k IH]; [reflexivity|]; cbn [repeat concat]; rewrite app_length, IH, C; lia).
  rewrite G. lia.
Qed.
Lemma ruler_length e c w : length (bytes e) = 1 -> length (bytes c) = 1 -> (2 <= w)%Z -> Z.of_nat (length (ruler e c w)) = w.
Proof. intros E C W. unfold ruler. rewrite !app_length, E. pose proof (many_length c (w - 2) C ltac:(lia)). lia. Qed.

(** ** Widths *)
Lemma max_size_sum junk x l (s : stats) : (log10 junk (st_sum s) + 2 <= max_size junk (x :: l) s)%Z.
Proof. unfold max_size. set (m := fold_left _ _ _). lia. Qed.
Lemma log10_bound junk (x : Q) (n : nat) : (q n <= x)%Q -> 1 <= n -> (Z.of_nat (length (int n)) <= log10 junk x + 1)%Z.
Proof.
  intros H N. assert (X : (0 < x)%Q). { eapply Qlt_le_trans; [|exact H]. unfold q. change 0%Q with (inject_Z 0). rewrite <- Zlt_Qlt. lia. }
  unfold log10. destruct (Qle_bool x 0) eqn:E; [apply Qle_bool_iff in E; exfalso; lra|]. clear E.
  assert (D : forall k, (N.of_nat n < 10 ^ N.of_nat k)%N -> 1 <= k -> length (int n) <= k) by (intros k; apply decimal_length, int_count).
  destruct (Qle_bool x 1) eqn:E.
  - apply Qle_bool_iff in E. assert (n = 1) as ->. { assert (q n <= q 1)%Q as G by (unfold q; change (inject_Z (Z.of_nat 1)) with 1%Q; unfold q in H; lra). unfold q in G. rewrite <- Zle_Qle in G. lia. } vm_compute. discriminate.
  - clear E. set (c := (- (- Qnum x / QDen x))%Z).
    assert (C : (x <= inject_Z c)%Q). { unfold Qle, inject_Z. cbn [Qnum Qden]. unfold c. pose proof (Z.mul_div_le (- Qnum x) (QDen x) ltac:(lia)). nia. }
    assert (NC : (Z.of_nat n <= c)%Z). { unfold q in H. rewrite Zle_Qle. lra. }
    set (t := nat_text (Z.to_N (c - 1))). assert (T : (Z.to_N (c - 1) < 10 ^ N.of_nat (length t))%N). { destruct (nat_text_decimal (Z.to_N (c - 1))) as (F & V & _). fold t in F, V. rewrite <- V at 1. apply value_lt, F. }
    assert (length (int n) <= length t + 1); [|lia]. apply D; [|lia]. rewrite Nat2N.inj_add, N.pow_add_r. change (10 ^ N.of_nat 1)%N with 10%N. set (p := (10 ^ N.of_nat (length t))%N) in *. clearbody p. lia.
Qed.
Lemma statistics_ok junk l : exists s z, statistics junk l = Ok (s, z) /\ compute l = Some s /\ z = max_size junk l s.
Proof.
  unfold statistics. destruct l as [|x l].
  - eexists. eexists. split; [reflexivity|]. split; reflexivity.
  - destruct (C21_mean (x :: l)) as (s & -> & _); [discriminate|]. eexists. eexists. split; [reflexivity|]. split; reflexivity.
Qed.
Lemma sum_eq l s : compute l = Some s -> (st_sum s == qtotal l)%Q.
Proof.
  destruct l as [|x l]; [intros E; injection E as <-; reflexivity|]. intros E. destruct (C21_mean (x :: l)) as (s' & E' & S1 & _); [discriminate|]. congruence.
Qed.
Lemma qtotal_count {A} (f : A -> nat) (l : list A) : (qtotal (map (fun a => q (f a)) l) == q (list_sum (map f l)))%Q.
Proof. induction l as [|a l IH]; [reflexivity|]. cbn [map qtotal fold_right list_sum]. fold (qtotal (map (fun a => q (f a)) l)). fold (list_sum (map f l)). rewrite IH. unfold q. rewrite Nat2Z.inj_add, inject_Z_plus. reflexivity. Qed.
Lemma in_list_sum (l : list nat) x : In x l -> x <= list_sum l.
Proof. induction l as [|y l IH]; [contradiction|]. intros [->|I]; cbn [list_sum fold_right]; fold (list_sum l); [lia|]. specialize (IH I). lia. Qed.
(** the count of a speaker, or the sum, has room in the column of a statistics of counts *)
Lemma count_fits junk {A} (f : A -> nat) (l : list A) s b n : compute (map (fun a => q (f a)) l) = Some s -> n <= list_sum (map f l) -> (1 <= b)%Z ->
  (Z.of_nat (length (int n)) <= Z.max b (max_size junk (map (fun a => q (f a)) l) s))%Z.
Proof.
  intros E H B. destruct n as [|n]; [change (length (int 0)) with 1; lia|]. destruct l as [|a l]; [cbn in H; lia|].
  pose proof (max_size_sum junk (q (f a)) (map (fun a => q (f a)) l) s) as M. change (q (f a) :: map (fun a => q (f a)) l) with (map (fun a => q (f a)) (a :: l)) in M.
  pose proof (log10_bound junk (st_sum s) (S n)) as L. assert ((q (S n) <= st_sum s)%Q). { rewrite (sum_eq _ _ E), qtotal_count. unfold q. rewrite <- Zle_Qle. lia. } specialize (L H0 ltac:(lia)). lia.
Qed.
