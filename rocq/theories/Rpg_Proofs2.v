(** Proofs about formats and sizes. *)
From Coq Require Import List Arith ZArith NArith Bool Lia.
From Verif Require Import Base Rpg_Model Rpg_Spec Rpg_Proofs1.
Import ListNotations.
Local Open Scope res_scope.
Local Open Scope nat_scope.

(** ** Formats *)
Definition ok_col (c : N * N) : Prop := In (fst c) [99; 67; 108; 76; 114; 82; 97]%N /\ In (snd c) [32; 124; 61]%N.
Definition eqs (cols : list (N * N)) : nat := length (filter (fun c => (snd c =? 61)%N) cols).
Definition def_of (cols : list (N * N)) : cdef := {| d_cols := cols; d_chars := eqs cols |}.
Lemma ok_letter : forall j, In j [99; 67; 108; 76; 114; 82; 97]%N -> letter j = true /\ (j =? 58)%N = false /\ (j =? 124)%N = false /\ (j =? 61)%N = false.
Proof. intros j H. repeat destruct H as [<-|H]; try (repeat split; reflexivity). destruct H. Qed.
Lemma parse_spell : forall cols fuel acc num chars, Forall ok_col cols -> num = length acc -> length cols < fuel ->
  parse fuel (spell cols) acc num chars = Ok {| d_cols := acc ++ cols; d_chars := chars + eqs cols |}.
Proof.
  induction cols as [|[j i] cols IH]; intros fuel acc num chars F Hn Hf; (destruct fuel as [|fuel]; [lia|]).
  - cbn [spell flat_map parse eqs filter length]. rewrite app_nil_r, Nat.add_0_r, Hn, firstn_all. reflexivity.
  - pose proof (Forall_inv F) as [Hj Hi]. apply Forall_inv_tail in F. cbn [fst snd] in Hj, Hi.
    destruct (ok_letter j Hj) as [E1 [E2 _]]. cbn [length] in Hf.
    change (spell ((j, i) :: cols)) with ((j :: (if (i =? 32)%N then [] else [i])) ++ spell cols).
    cbn [app parse]. rewrite E1, E2.
    assert (G : forall chars', chars' = chars + (if (i =? 61)%N then 1 else 0) ->
        parse fuel (spell cols) (acc ++ [(j, i)]) (S num) chars'
        = Ok {| d_cols := acc ++ (j, i) :: cols; d_chars := chars + eqs ((j, i) :: cols) |}).
    { intros chars' ->. rewrite IH; [|exact F|rewrite app_length; cbn [length]; lia|lia].
      rewrite <- app_assoc. cbn [app]. f_equal. f_equal. unfold eqs. cbn [filter snd]. destruct (i =? 61)%N; cbn [length]; lia. }
    destruct Hi as [<-|[<-|[<-|[]]]].
    + change (32 =? 32)%N with true. cbn [app].
      destruct cols as [|[j' i'] cols].
      * cbn [spell flat_map]. apply (G chars). change (32 =? 61)%N with false. cbv iota. lia.
      * pose proof (Forall_inv F) as [Hj' _]. cbn [fst] in Hj'. destruct (ok_letter j' Hj') as [_ [_ [E3 E4]]].
        change (spell ((j', i') :: cols)) with (j' :: ((if (i' =? 32)%N then [] else [i']) ++ spell cols)) in *.
        cbv iota beta. rewrite E3, E4. apply (G chars). change (32 =? 61)%N with false. cbv iota. lia.
    + change (124 =? 32)%N with false. cbn [app]. change (124 =? 124)%N with true. cbv iota.
      apply (G chars). change (124 =? 61)%N with false. cbv iota. lia.
    + change (61 =? 32)%N with false. cbn [app]. change (61 =? 124)%N with false. change (61 =? 61)%N with true. cbv iota.
      apply (G (S chars)). change (61 =? 61)%N with true. cbv iota. lia.
Qed.
Lemma spell_length : forall cols, length cols <= length (spell cols).
Proof.
  induction cols as [|[j i] cols IH]; [reflexivity|]. change (spell ((j, i) :: cols)) with ((j :: (if (i =? 32)%N then [] else [i])) ++ spell cols).
  rewrite app_length. cbn [length]. lia.
Qed.
Lemma justification_spell : forall cols, Forall ok_col cols -> length (spell cols) < 100 -> justification 101 (spell cols) = Ok (def_of cols).
Proof.
  intros cols F H. unfold justification. apply Nat.ltb_lt in H. rewrite H. apply Nat.ltb_lt in H.
  rewrite parse_spell; [reflexivity|exact F|reflexivity|]. pose proof (spell_length cols). lia.
Qed.

(** ** Values *)
Fixpoint vis {A} (cols : list (N * N)) (xs : list A) : list A :=
  match cols, xs with
  | (j, _) :: cols, x :: xs => if is_a j then vis cols xs else x :: vis cols xs
  | _, _ => []
  end.
Lemma fill_ok : forall old r cols c args, length args = length (visible cols) -> Forall (fun v => length v < 2000) args ->
  exists vs, fill old r c cols args = Ok vs /\ length vs = length cols /\ vis cols vs = args
    /\ forall v, In v vs -> In v args \/ exists c, v = old c r.
Proof.
  intros old r cols. induction cols as [|[j i] cols IH]; intros c args L F.
  - destruct args; [|discriminate]. exists []. cbn. repeat split; auto; intros v [].
  - unfold visible in L. cbn [filter fst] in L. cbn [fill]. unfold is_a. destruct (j =? 97)%N eqn:E; cbn [negb] in *.
    + destruct (IH (c + 1) args L F) as [vs [H1 [H2 [H3 H4]]]]. rewrite H1. cbn [rbind]. exists (old c r :: vs).
      split; [reflexivity|]. split; [cbn [length]; lia|]. split; [cbn [vis]; unfold is_a; rewrite E; exact H3|].
      intros v [<-|Hv]; [right; exists c; reflexivity|]. apply H4. exact Hv.
    + destruct args as [|v args]; [discriminate|]. cbn [length] in L. pose proof (Forall_inv F) as Hv. cbn beta in Hv. apply Nat.ltb_lt in Hv. rewrite Hv.
      destruct (IH (c + 1) args ltac:(unfold visible; lia) (Forall_inv_tail F)) as [vs [H1 [H2 [H3 H4]]]]. rewrite H1. cbn [rbind]. exists (v :: vs).
      split; [reflexivity|]. split; [cbn [length]; lia|]. split; [cbn [vis]; unfold is_a; rewrite E; f_equal; exact H3|].
      intros x [<-|Hx]; [left; left; reflexivity|]. destruct (H4 x Hx); [left; right; assumption|right; assumption].
Qed.
(** a row as it is kept *)
Definition kept (r : srow) (m : row) : Prop :=
  r_def m = def_of (s_cols r) /\ length (r_vals m) = length (s_cols r) /\ vis (s_cols r) (r_vals m) = s_vals r
  /\ r_before m = s_before r /\ r_after m = s_after r.
Lemma build_before : forall fuel old r bs ops before after,
  build fuel old r before after (map (fun c => Separation c true) bs ++ ops) = build fuel old r (before ++ bs) after ops.
Proof.
  induction bs as [|b bs IH]; intros; cbn [map app build]; [rewrite app_nil_r; reflexivity|]. rewrite IH, <- app_assoc. reflexivity.
Qed.
Lemma build_after : forall fuel old r bs ops before after,
  build fuel old r before after (map (fun c => Separation c false) bs ++ ops) = build fuel old r before (after ++ bs) ops.
Proof.
  induction bs as [|b bs IH]; intros; cbn [map app build]; [rewrite app_nil_r; reflexivity|]. rewrite IH, <- app_assoc. reflexivity.
Qed.
Lemma build_ok : forall old rows r, Forall good_row rows ->
  exists ms, build 101 old r [] [] (flat_map calls rows) = Ok ms /\ Forall2 kept rows ms
    /\ forall m, In m ms -> forall v, In v (r_vals m) -> (exists sr, In sr rows /\ In v (s_vals sr)) \/ exists c k, v = old c k.
Proof.
  intros old rows. induction rows as [|sr rows IH]; intros r G.
  - exists []. split; [reflexivity|]. split; [constructor|]. intros m [].
  - pose proof (Forall_inv G) as [_ [_ [Hc [_ [Hs [Hl [Hv _]]]]]]]. destruct (IH (r + 1) (Forall_inv_tail G)) as [ms [H1 [H2 H3]]].
    destruct (fill_ok old r (s_cols sr) 0 (s_vals sr) Hl Hv) as [vs [F1 [F2 [F3 F4]]]].
    cbn [flat_map]. unfold calls at 1. rewrite <- !app_assoc. rewrite build_before, build_after. cbn [app build].
    rewrite justification_spell by assumption. cbn [rbind def_of d_cols]. rewrite F1. cbn [rbind]. rewrite H1. cbn [rbind].
    eexists. split; [reflexivity|]. split.
    + constructor; [|exact H2]. repeat split; assumption.
    + intros m [<-|Hm].
      * cbn [r_vals]. intros v Hin. destruct (F4 v Hin) as [A|[c A]]; [left; exists sr; split; [left; reflexivity|exact A]|right; exists c, r; exact A].
      * intros v Hin. destruct (H3 m Hm v Hin) as [[x [A B]]|A]; [left; exists x; split; [right; exact A|exact B]|right; exact A].
Qed.

(** ** The sizes fit *)
Definition le_sz (a b : sizes) : Prop := forall n c, a n c <= b n c.
Lemma le_sz_refl : forall a, le_sz a a. Proof. intros a n c. lia. Qed.
Lemma le_sz_trans : forall a b c, le_sz a b -> le_sz b c -> le_sz a c.
Proof. intros a b c H1 H2 n k. specialize (H1 n k). specialize (H2 n k). lia. Qed.
Lemma put_same : forall sz n c v, put sz n c v n c = v.
Proof. intros. unfold put. rewrite !Nat.eqb_refl. reflexivity. Qed.
Lemma put_other : forall sz n c v n' c', c' <> c -> put sz n c v n' c' = sz n' c'.
Proof. intros. unfold put. apply Nat.eqb_neq in H. rewrite H, andb_false_r. reflexivity. Qed.
Lemma put_mono : forall sz n c v, sz n c <= v -> le_sz sz (put sz n c v).
Proof.
  intros sz n c v H n' c'. unfold put. destruct ((n' =? n) && (c' =? c)) eqn:E; [|lia].
  apply andb_true_iff in E. destruct E as [E1 E2]. apply Nat.eqb_eq in E1, E2. subst. exact H.
Qed.
Lemma pass1_mono : forall n cols c vals sz, le_sz sz (pass1 n c cols vals sz).
Proof.
  induction cols as [|[j i] cols IH]; intros c vals sz; [apply le_sz_refl|]. destruct vals as [|v vals]; [apply le_sz_refl|].
  cbn [pass1]. eapply le_sz_trans; [|apply IH]. destruct (run cols =? 0); [|apply le_sz_refl]. apply put_mono. lia.
Qed.
Lemma distribute_mono : forall num n k c siz sp sz, le_sz sz (distribute num n c k siz sp sz).
Proof.
  induction k as [|k IH]; intros c siz sp sz; cbn [distribute]; [apply put_mono; lia|]. cbv zeta.
  eapply le_sz_trans; [|apply IH]. apply put_mono. lia.
Qed.
Lemma distribute_other : forall num n k c siz sp sz n' c', c' < c -> distribute num n c k siz sp sz n' c' = sz n' c'.
Proof.
  induction k as [|k IH]; intros c siz sp sz n' c' H; cbn [distribute]; [apply put_other; lia|]. cbv zeta.
  rewrite IH by lia. apply put_other. lia.
Qed.
Lemma pass2_mono : forall pad n cols c skip vals sz, le_sz sz (pass2 pad n c skip cols vals sz).
Proof.
  induction cols as [|[j i] cols IH]; intros c skip vals sz; [apply le_sz_refl|]. destruct vals as [|v vals]; [apply le_sz_refl|].
  cbn [pass2]. destruct skip; [|apply IH]. cbv zeta. destruct (run cols =? 0); [apply IH|].
  eapply le_sz_trans; [|apply IH]. destruct (span_size pad n c (run cols) sz <? measure (isupper j) 0 0 v); [|apply le_sz_refl]. apply distribute_mono.
Qed.
Lemma span_size_mono : forall pad n k c a b, le_sz a b -> span_size pad n c k a <= span_size pad n c k b.
Proof.
  induction k as [|k IH]; intros c a b H; cbn [span_size]; [apply H|]. specialize (IH (c + 1) a b H). specialize (H n c). lia.
Qed.
Lemma span_size_ext : forall pad n k c a b, (forall c', c <= c' -> a n c' = b n c') -> span_size pad n c k a = span_size pad n c k b.
Proof.
  induction k as [|k IH]; intros c a b H; cbn [span_size]; [apply H; lia|]. rewrite (H c) by lia. rewrite (IH (c + 1) a b); [reflexivity|]. intros. apply H. lia.
Qed.
Lemma rnd_le : forall a b, 0 < b -> rnd a b <= a.
Proof.
  intros a b H. unfold rnd. destruct (Nat.eq_dec a 0) as [->|Ha].
  - rewrite Nat.div_small; [lia|lia].
  - apply Nat.lt_succ_r. apply Nat.div_lt_upper_bound; [lia|]. nia.
Qed.
Lemma distribute_size : forall pad num n k c siz sp sz, 0 < num -> sp <= siz ->
  span_size pad n c k (distribute num n c k siz sp sz) = span_size pad n c k sz + (siz - sp).
Proof.
  induction k as [|k IH]; intros c siz sp sz Hn Hs; cbn [distribute span_size]; [rewrite put_same; reflexivity|]. cbv zeta.
  pose proof (rnd_le (siz - sp) num Hn) as Hr. set (add := rnd (siz - sp) num) in *. clearbody add.
  rewrite distribute_other by lia. rewrite put_same. rewrite IH by lia.
  rewrite (span_size_ext pad n k (c + 1) (put sz n c (sz n c + add)) sz); [lia|]. intros. apply put_other. lia.
Qed.
(** every text fits into its cell *)
Fixpoint fit (pad n c : nat) (cols : list (N * N)) (vals : list (list N)) (sz : sizes) : Prop :=
  match cols, vals with
  | (j, _) :: more, v :: vals =>
      (is_a j = false -> measure (isupper j) 0 0 v <= span_size pad n c (run more) sz) /\ fit pad n (c + 1) more vals sz
  | _, _ => True
  end.
Fixpoint fit1 (n c : nat) (cols : list (N * N)) (vals : list (list N)) (sz : sizes) : Prop :=
  match cols, vals with
  | (j, _) :: more, v :: vals => (run more = 0 -> measure (isupper j) 0 0 v <= sz n c) /\ fit1 n (c + 1) more vals sz
  | _, _ => True
  end.
Lemma fit_mono : forall pad n cols c vals a b, le_sz a b -> fit pad n c cols vals a -> fit pad n c cols vals b.
Proof.
  induction cols as [|[j i] cols IH]; intros c vals a b H F; [exact I|]. destruct vals as [|v vals]; [exact I|].
  destruct F as [F1 F2]. split; [|exact (IH _ _ _ _ H F2)]. intros E. specialize (F1 E). pose proof (span_size_mono pad n (run cols) c a b H). lia.
Qed.
Lemma fit1_mono : forall n cols c vals a b, le_sz a b -> fit1 n c cols vals a -> fit1 n c cols vals b.
Proof.
  induction cols as [|[j i] cols IH]; intros c vals a b H F; [exact I|]. destruct vals as [|v vals]; [exact I|].
  destruct F as [F1 F2]. split; [|exact (IH _ _ _ _ H F2)]. intros E. specialize (F1 E). specialize (H n c). lia.
Qed.
Lemma pass1_fit : forall n cols c vals sz, fit1 n c cols vals (pass1 n c cols vals sz).
Proof.
  induction cols as [|[j i] cols IH]; intros c vals sz; [exact I|]. destruct vals as [|v vals]; [exact I|].
  cbn [pass1 fit1]. split; [|apply IH]. intros E. rewrite E. cbn [Nat.eqb].
  eapply Nat.le_trans; [|apply pass1_mono]. rewrite put_same. lia.
Qed.
Lemma pass2_fit : forall pad n cols c skip vals sz, skip <= run cols -> fit1 n c cols vals sz -> fit pad n c cols vals (pass2 pad n c skip cols vals sz).
Proof.
  induction cols as [|[j i] cols IH]; intros c skip vals sz Hs F; [exact I|]. destruct vals as [|v vals]; [exact I|].
  destruct F as [F1 F2]. cbn [pass2 fit]. cbn [run] in Hs. destruct skip as [|skip].
  - cbv zeta. destruct (Nat.eq_dec (run cols) 0) as [E|E].
    + rewrite E. cbn [Nat.eqb span_size]. split; [|apply IH; [lia|exact F2]]. intros _. specialize (F1 E).
      pose proof (pass2_mono pad n cols (c + 1) 0 vals sz n c). lia.
    + apply Nat.eqb_neq in E. rewrite E. split.
      * intros _. eapply Nat.le_trans; [|apply span_size_mono; apply pass2_mono].
        destruct (span_size pad n c (run cols) sz <? measure (isupper j) 0 0 v) eqn:L.
        -- apply Nat.ltb_lt in L. rewrite distribute_size by lia. lia.
        -- apply Nat.ltb_ge in L. exact L.
      * apply IH; [lia|]. eapply fit1_mono; [|exact F2]. destruct (_ <? _); [apply distribute_mono|apply le_sz_refl].
  - destruct (is_a j) eqn:E; [|lia]. split; [discriminate|]. apply IH; [lia|exact F2].
Qed.
Lemma fold_mono : forall A (f : sizes -> A -> sizes), (forall s x, le_sz s (f s x)) -> forall l s, le_sz s (fold_left f l s).
Proof. intros A f H l. induction l as [|x l IH]; intros s; [apply le_sz_refl|]. cbn [fold_left]. eapply le_sz_trans; [apply H|apply IH]. Qed.
Lemma all_sizes_fit : forall pad rows m, In m rows -> fit pad (num_col m) 0 (d_cols (r_def m)) (r_vals m) (all_sizes pad rows).
Proof.
  intros pad rows m Hm. unfold all_sizes.
  set (f1 := fun sz r => pass1 (num_col r) 0 (d_cols (r_def r)) (r_vals r) sz).
  set (f2 := fun sz r => pass2 pad (num_col r) 0 0 (d_cols (r_def r)) (r_vals r) sz). cbv zeta.
  assert (F1 : forall rows s, In m rows -> fit1 (num_col m) 0 (d_cols (r_def m)) (r_vals m) (fold_left f1 rows s)).
  { clear rows Hm. induction rows as [|x rows IH]; intros s Hm; [destruct Hm|]. cbn [fold_left]. destruct Hm as [->|Hm]; [|apply IH; exact Hm].
    eapply fit1_mono; [apply fold_mono; intros; apply pass1_mono|]. apply pass1_fit. }
  assert (F2 : forall l s, In m l -> fit1 (num_col m) 0 (d_cols (r_def m)) (r_vals m) s ->
              fit pad (num_col m) 0 (d_cols (r_def m)) (r_vals m) (fold_left f2 l s)).
  { induction l as [|x l IH]; intros s Hl F; [destruct Hl|]. cbn [fold_left]. destruct Hl as [->|Hl].
    - eapply fit_mono; [apply fold_mono; intros; apply pass2_mono|]. apply pass2_fit; [lia|exact F].
    - apply IH; [exact Hl|]. eapply fit1_mono; [apply pass2_mono|exact F]. }
  apply F2; [exact Hm|]. apply F1. exact Hm.
Qed.
(** no size is larger than the longest value *)
Lemma all_sizes_le : forall pad B rows, (forall m, In m rows -> Forall (fun v => length v <= B) (r_vals m)) -> forall n c, all_sizes pad rows n c <= B.
Proof.
  intros pad B rows H. assert (P1 : forall n cols c vals sz, Forall (fun v => length v <= B) vals -> (forall a b, sz a b <= B) -> forall a b, pass1 n c cols vals sz a b <= B).
  { intros n cols. induction cols as [|[j i] cols IH]; intros c vals sz F L; [exact L|]. destruct vals as [|v vals]; [exact L|].
    cbn [pass1]. apply IH; [exact (Forall_inv_tail F)|]. destruct (run cols =? 0); [|exact L]. intros a b. unfold put.
    destruct ((a =? n) && (b =? c)); [|apply L]. pose proof (measure_le (isupper j) v 0). pose proof (Forall_inv F) as Fv. cbn beta in Fv. specialize (L n c). lia. }
  assert (D : forall num n k c siz sp sz, 0 < num -> siz <= B -> (sp <= siz -> span_size pad n c k sz <= sp) -> sp <= siz -> (forall a b, sz a b <= B) -> forall a b, distribute num n c k siz sp sz a b <= B).
  { intros num n k. induction k as [|k IH]; intros c siz sp sz Hn Hs Hsp Hle L; cbn [distribute].
    - intros a b. specialize (Hsp Hle). cbn [span_size] in Hsp. unfold put. destruct ((a =? n) && (b =? c)); [lia|apply L].
    - cbv zeta. pose proof (rnd_le (siz - sp) num Hn) as Hr. set (add := rnd (siz - sp) num) in *. clearbody add.
      specialize (Hsp Hle). cbn [span_size] in Hsp. apply IH; try lia.
      + intros _. rewrite (span_size_ext pad n k (c + 1) (put sz n c (sz n c + add)) sz); [lia|]. intros. apply put_other. lia.
      + intros a b. unfold put. destruct ((a =? n) && (b =? c)); [lia|apply L]. }
  assert (P2 : forall n cols c skip vals sz, Forall (fun v => length v <= B) vals -> (forall a b, sz a b <= B) -> forall a b, pass2 pad n c skip cols vals sz a b <= B).
  { intros n cols. induction cols as [|[j i] cols IH]; intros c skip vals sz F L; [exact L|]. destruct vals as [|v vals]; [exact L|].
    pose proof (Forall_inv_tail F) as Ft. cbn [pass2]. destruct skip; [|apply IH; assumption]. cbv zeta. destruct (run cols =? 0); [apply IH; assumption|].
    apply IH; [exact Ft|]. destruct (_ <? _) eqn:E; [|exact L]. apply Nat.ltb_lt in E. apply D; try lia; [|exact L].
    pose proof (measure_le (isupper j) v 0). pose proof (Forall_inv F) as Fv. cbn beta in Fv. lia. }
  unfold all_sizes. cbv zeta.
  assert (G1 : forall l s, (forall m, In m l -> In m rows) -> (forall a b, s a b <= B) -> forall a b, fold_left (fun sz r => pass1 (num_col r) 0 (d_cols (r_def r)) (r_vals r) sz) l s a b <= B).
  { induction l as [|x l IH]; intros s Hl L; [exact L|]. cbn [fold_left]. apply IH; [intros; apply Hl; right; assumption|].
    apply P1; [apply H; apply Hl; left; reflexivity|exact L]. }
  assert (G2 : forall l s, (forall m, In m l -> In m rows) -> (forall a b, s a b <= B) -> forall a b, fold_left (fun sz r => pass2 pad (num_col r) 0 0 (d_cols (r_def r)) (r_vals r) sz) l s a b <= B).
  { induction l as [|x l IH]; intros s Hl L; [exact L|]. cbn [fold_left]. apply IH; [intros; apply Hl; right; assumption|].
    apply P2; [apply H; apply Hl; left; reflexivity|exact L]. }
  apply G2; [auto|]. apply G1; [auto|]. intros. lia.
Qed.

(** ** The width *)
Lemma width_ge : forall pad sz rows m, In m rows -> just_width pad sz (r_def m) <= width pad sz rows.
Proof.
  intros pad sz rows m. unfold width.
  assert (A : forall l a, a <= fold_left (fun w r => Nat.max w (just_width pad sz (r_def r))) l a).
  { induction l as [|x l IH]; intros a; [cbn; lia|]. cbn [fold_left]. eapply Nat.le_trans; [|apply IH]. lia. }
  generalize 0. induction rows as [|x rows IH]; intros a Hm; [destruct Hm|]. cbn [fold_left]. destruct Hm as [->|Hm]; [|apply IH; exact Hm].
  eapply Nat.le_trans; [|apply A]. lia.
Qed.
Lemma width_some : forall pad sz rows, rows <> [] -> exists m, In m rows /\ width pad sz rows = just_width pad sz (r_def m).
Proof.
  intros pad sz rows H. unfold width.
  assert (A : forall l a, fold_left (fun w r => Nat.max w (just_width pad sz (r_def r))) l a = a
                        \/ exists m, In m l /\ fold_left (fun w r => Nat.max w (just_width pad sz (r_def r))) l a = just_width pad sz (r_def m)).
  { induction l as [|x l IH]; intros a; [left; reflexivity|]. cbn [fold_left]. destruct (IH (Nat.max a (just_width pad sz (r_def x)))) as [E|[m [E1 E2]]].
    - rewrite E. destruct (Nat.max_spec a (just_width pad sz (r_def x))) as [[_ E']|[_ E']]; rewrite E'; [right; exists x; split; [left; reflexivity|reflexivity]|left; reflexivity].
    - right. exists m. split; [right; exact E1|exact E2]. }
  destruct rows as [|x rows]; [congruence|]. cbn [fold_left]. cbn [Nat.max].
  destruct (A rows (just_width pad sz (r_def x))) as [E|[m [E1 E2]]].
  - exists x. split; [left; reflexivity|exact E].
  - exists m. split; [right; exact E1|exact E2].
Qed.

(** ** The sizes of cells *)
Lemma total_split : forall pad n a b c sz, total pad n c (a + b) sz = total pad n c a sz + total pad n (c + a) b sz.
Proof.
  induction a as [|a IH]; intros b c sz; cbn [plus total]; [rewrite Nat.add_0_r; reflexivity|]. rewrite IH.
  replace (c + 1 + a) with (c + S a) by lia. lia.
Qed.
Lemma span_size_total : forall pad n k c sz, span_size pad n c k sz = sz n c + (total pad n (c + 1) k sz + k).
Proof.
  induction k as [|k IH]; intros c sz; cbn [span_size total]; [lia|]. rewrite IH. lia.
Qed.
Lemma spanned_eq : forall spread pad sz u n m k c2 add tw cw, (k = 0 \/ spread u n m <= add) ->
  spanned spread pad sz u n m c2 k add tw cw = (tw + (total pad n c2 k sz + k), cw + (total pad n c2 k sz + k), add).
Proof.
  induction k as [|k IH]; intros c2 add tw cw H; cbn [spanned total]; [rewrite !Nat.add_0_r; reflexivity|]. cbv zeta.
  destruct H as [H|H]; [lia|]. replace (spread u n m - add) with 0 by lia. rewrite IH by (right; lia). f_equal; [f_equal; lia|lia].
Qed.
(** how much is added to a cell, and how much has been added then *)
Definition added (spread : nat -> nat -> nat -> nat) (u n c add : nat) (more : list (N * N)) : nat :=
  match more with [] => u | _ => Nat.max add (spread u n (c + run more + 1)) end.
Lemma cell_sizes_cons : forall spread pad sz u n c add j i more,
  cell_sizes spread pad sz u n c add ((j, i) :: more) =
  if is_a j then (0, 0) :: cell_sizes spread pad sz u n (c + 1) add more
  else (span_size pad n c (run more) sz, span_size pad n c (run more) sz + pad * 2 + (added spread u n c add more - add))
       :: cell_sizes spread pad sz u n (c + 1) (added spread u n c add more) more.
Proof.
  intros. cbn [cell_sizes]. destruct (is_a j); cbn [negb]; [reflexivity|]. cbv zeta. destruct more as [|x more].
  - cbn [run spanned added cell_sizes span_size]. f_equal. f_equal. lia.
  - rewrite spanned_eq by (right; cbn [added]; lia). rewrite span_size_total. cbn [added].
    set (s := spread u n (c + run (x :: more) + 1)).
    replace (Nat.max add s - add) with (s - add) by lia. replace (Nat.max add s) with (add + (s - add)) by lia. f_equal. f_equal. lia.
Qed.
Lemma cell_sizes_length : forall spread pad sz u n cols c add, length (cell_sizes spread pad sz u n c add cols) = length cols.
Proof.
  induction cols as [|[j i] cols IH]; intros c add; [reflexivity|]. rewrite cell_sizes_cons. destruct (is_a j); cbn [length]; rewrite IH; reflexivity.
Qed.
Lemma run_le : forall cols : list (N * N), run cols <= length cols.
Proof. induction cols as [|[j i] cols IH]; cbn [run length]; [lia|]. destruct (is_a j); lia. Qed.
Lemma cells_last : forall cols, is_last cols = true <-> cells cols = [].
Proof.
  induction cols as [|[j i] cols IH]; [split; reflexivity|]. unfold is_last in *. cbn [run length cells]. unfold is_a. destruct (j =? 97)%N.
  - exact IH.
  - split; [discriminate|]. intros H. discriminate.
Qed.
(** the length of a line *)
Fixpoint lens (cs : list (N * N)) (W : list (nat * nat)) : nat :=
  match cs, W with
  | c :: cs, tc :: W => snd tc + match cs with [] => 0 | _ => length (bar_of (snd c)) + lens cs W end
  | _, _ => 0
  end.
Lemma bars_run : forall cols i, (i = 61%N -> match cols with (j, _) :: _ => j <> 97%N | [] => False end) -> bars_between cols ->
  (if (i =? 61)%N then 1 else 0) + eqs cols
  = (if is_last cols then 0 else if (end_sep i cols =? 61)%N then 1 else 0) + eqs (skipn (run cols) cols).
Proof.
  induction cols as [|[j i'] cols IH]; intros i H B.
  - cbn [eqs filter length run skipn is_last Nat.eqb]. unfold is_last. cbn [run length Nat.eqb]. destruct (i =? 61)%N eqn:E; [|reflexivity].
    apply N.eqb_eq in E. destruct (H E).
  - destruct B as [B1 B2]. cbn [run end_sep]. unfold is_last in *. cbn [run length]. unfold is_a in *. destruct (j =? 97)%N eqn:E.
    + cbn [skipn Nat.eqb]. rewrite <- (IH i' B1 B2). unfold eqs at 1. cbn [filter snd].
      assert (Hi : (i =? 61)%N = false). { apply N.eqb_neq. intros Hi. apply (H Hi). apply N.eqb_eq. exact E. }
      rewrite Hi. destruct (i' =? 61)%N; cbn [length plus]; reflexivity.
    + cbn [Nat.eqb skipn]. reflexivity.
Qed.
Lemma bar_of_length : forall i, length (bar_of i) = 1 + (if (i =? 61)%N then 1 else 0).
Proof. intros i. unfold bar_of. destruct (i =? 61)%N; reflexivity. Qed.
Lemma lens_total : forall spread pad sz u n cols c add, fair spread -> 0 < n -> bars_between cols -> c + length cols = n ->
  (add <= spread u n (c + run cols) \/ add = 0) ->
  lens (cells cols) (vis cols (cell_sizes spread pad sz u n c add cols))
  = if is_last cols then 0
    else total pad n (c + run cols) (length cols - run cols) sz + eqs (skipn (run cols) cols) + (length cols - run cols - 1) + (u - add).
Proof.
  intros spread pad sz u n cols. induction cols as [|[j i] cols IH]; intros c add Hf Hn0 B Hn Ha; [reflexivity|].
  rewrite cell_sizes_cons. destruct B as [B1 B2]. cbn [length] in Hn. unfold is_last. cbn [cells vis run length]. unfold is_a. destruct (j =? 97)%N eqn:E.
  - cbn [app]. rewrite IH; [|exact Hf|exact Hn0|exact B2|lia|]. 2:{ cbn [run] in Ha. unfold is_a in Ha. rewrite E in Ha. replace (c + 1 + run cols) with (c + S (run cols)) by lia. exact Ha. }
    unfold is_last. cbn [Nat.eqb skipn]. replace (c + 1 + run cols) with (c + S (run cols)) by lia.
    replace (S (length cols) - S (run cols)) with (length cols - run cols) by lia. reflexivity.
  - cbn [app Nat.eqb lens snd skipn]. rewrite Nat.sub_0_r, Nat.add_0_r.
    assert (Hadd : added spread u n c add cols = spread u n (c + 1 + run cols)).
    { unfold added. destruct cols as [|x cols].
      - cbn [run length] in *. replace (c + 1 + 0) with n by lia. symmetry. apply (proj2 Hf). exact Hn0.
      - replace (c + run (x :: cols) + 1) with (c + 1 + run (x :: cols)) by lia. destruct Ha as [Ha|Ha]; [|lia].
        assert (spread u n (c + run ((j, i) :: x :: cols)) <= spread u n (c + 1 + run (x :: cols))).
        { apply (proj1 Hf). cbn [run]. unfold is_a. rewrite E. lia. } lia. }
    assert (Hle : add <= spread u n (c + 1 + run cols)).
    { destruct Ha as [Ha|Ha]; [|lia]. eapply Nat.le_trans; [exact Ha|]. apply (proj1 Hf). cbn [run]. unfold is_a. rewrite E. lia. }
    rewrite Hadd. pose proof (run_le cols) as Hr. pose proof (span_size_total pad n (run cols) c sz) as Hsp.
    pose proof (bars_run cols i B1 B2) as Hb.
    assert (He : eqs ((j, i) :: cols) = (if (i =? 61)%N then 1 else 0) + eqs cols) by (unfold eqs; cbn [filter snd]; destruct (i =? 61)%N; reflexivity).
    rewrite He, Hb. replace (S (length cols)) with (1 + run cols + (length cols - run cols)) by lia. rewrite total_split.
    replace (c + (1 + run cols)) with (c + 1 + run cols) by lia. cbn [plus total]. rewrite Hsp.
    destruct (is_last cols) eqn:El.
    + rewrite (proj1 (cells_last cols) El). unfold is_last in El. apply Nat.eqb_eq in El. unfold col in El.
      replace (length cols - run cols) with 0 by lia. cbn [total].
      assert (Hz : eqs (skipn (run cols) cols) = 0). { rewrite El, skipn_all. reflexivity. } rewrite Hz.
      replace (c + 1 + run cols) with n by lia. replace (c + 1 + run cols) with n in Hle by lia. rewrite (proj2 Hf u n Hn0). lia.
    + assert (HI := IH (c + 1) (spread u n (c + 1 + run cols)) Hf Hn0 B2 ltac:(lia) ltac:(left; lia)).
      destruct (cells cols) as [|x cs] eqn:Ec; [apply cells_last in Ec; congruence|]. rewrite HI.
      rewrite bar_of_length. unfold is_last in El. apply Nat.eqb_neq in El. unfold col in El.
      assert (Hu : spread u n (c + 1 + run cols) <= u). { rewrite <- (proj2 Hf u n Hn0) at 2. apply (proj1 Hf). lia. }
      lia.
Qed.
