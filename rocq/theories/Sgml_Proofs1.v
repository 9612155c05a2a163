(** Scanning texts, comparing texts, printing and reading numbers. *)
From Coq Require Import String Ascii.
From Coq Require Import List ZArith NArith Arith Bool Lia.
From Verif Require Import Base Text_Model Text_Spec Text_Proofs1 Sgml_Model Sgml_Spec.
From Verif Require Read_Model Word_Model Scores_Model.
Import ListNotations.
Local Open Scope res_scope.
Local Open Scope list_scope.

Lemma nb1 e b m : (b < 128)%N -> nbytes e (b :: m) = Ok 1.
Proof. intros H. apply nbytes_size; [lia|]. destruct e; cbn [char_size]; auto. Qed.

Lemma text_nil e : text e [].
Proof. exists []. repeat split; constructor. Qed.
Lemma text_app e a b : text e a -> text e b -> text e (a ++ b).
Proof.
  intros (cs & (-> & F1) & G1) (ds & (-> & F2) & G2). exists (cs ++ ds).
  split; [split; [symmetry; apply concat_app|]|]; apply Forall_app; auto.
Qed.
Lemma text_one e b : (0 < b < 128)%N -> text e [b].
Proof.
  intros H. exists [[b]]. split; [split; [reflexivity|]|]; (constructor; [|constructor]).
  - exists b, []. split; [reflexivity|]. split; [destruct e; cbn [char_size length]; lia|]. constructor; [lia|constructor].
  - intro Hl. cbn in Hl. lia.
Qed.
Lemma text_no0 e s : text e s -> ~ In 0%N s.
Proof. intros (cs & (-> & F) & _). exact (chars_no0 e cs F). Qed.
(** the ways a text can begin *)
Lemma text_ind e (P : str -> Prop) : P [] ->
  (forall b r, (0 < b < 128)%N -> text e r -> P r -> P (b :: r)) ->
  (forall c r, is_char e c -> 1 < length c -> Forall (fun b => 128 <= b)%N c -> text e r -> P r -> P (c ++ r)) ->
  (forall b r, (128 <= b < 256)%N -> is_char e [b] -> text e r -> P r -> P (b :: r)) ->
  forall s, text e s -> P s.
Proof.
  intros P0 P1 P2 P3 s (cs & (-> & F) & G). induction cs as [|c cs IH]; [exact P0|].
  inversion F as [|? ? Hc F']; subst. inversion G as [|? ? Hh G']; subst. cbn [concat].
  assert (HT : text e (concat cs)) by (exists cs; repeat split; assumption).
  specialize (IH F' G').
  destruct (Nat.lt_ge_cases 1 (length c)) as [L|L]; [apply P2; auto|].
  pose proof Hc as (b & r & -> & HS & HB). cbn [length] in L. destruct r; [|cbn in L; lia].
  cbn [app]. inversion HB; subst. destruct (N.lt_ge_cases b 128).
  - apply P1; auto. lia.
  - apply P3; auto. lia.
Qed.

(** ASCII constants *)
Definition plain (b : N) : bool := ((0 <? b) && (b <? 128))%N.
Lemma text_plain e s : forallb plain s = true -> text e s.
Proof.
  induction s as [|b s IH]; [intros _; apply text_nil|]. cbn [forallb]. intros H. apply andb_true_iff in H as [H1 H2].
  apply andb_true_iff in H1 as [H1 H3]. apply N.ltb_lt in H1, H3. change (b :: s) with ([b] ++ s). apply text_app; auto. apply text_one. lia.
Qed.

Lemma low_set set b : forallb plain set = true -> (128 <= b)%N -> in_set set b = false.
Proof.
  intros H L. unfold in_set. destruct (existsb (N.eqb b) set) eqn:E; [|reflexivity]. exfalso.
  apply existsb_exists in E as (x & Hx & Ex). apply N.eqb_eq in Ex. subst x.
  rewrite forallb_forall in H. specialize (H b Hx). apply andb_true_iff in H as [_ H]. apply N.ltb_lt in H. lia.
Qed.
Lemma not_in_set set b s : (forall x, in_set set x = true -> ~ In x s) -> In b s -> in_set set b = false.
Proof. intros H I. destruct (in_set set b) eqn:E; [|reflexivity]. exfalso. exact (H b E I). Qed.

Definition stops (set : str) (m : mem) : Prop :=
  exists b r, m = b :: r /\ (b < 128)%N /\ (b = 0%N \/ in_set set b = true).

Lemma strcspn_loop_ok e set s : forallb plain set = true -> text e s ->
  forall m f, (forall x, in_set set x = true -> ~ In x s) -> stops set m -> length s < f ->
  strcspn_loop f e set (s ++ m) = Ok (length s).
Proof.
  intros HS HT m f. revert s HT f.
  apply (text_ind e (fun s => forall f, (forall x, in_set set x = true -> ~ In x s) -> stops set m -> length s < f ->
    strcspn_loop f e set (s ++ m) = Ok (length s))).
  - intros f _ (b & r & -> & L & Hb) Hf. destruct f; [cbn in Hf; lia|]. cbn [strcspn_loop app rd rbind length].
    destruct (N.eqb_spec b 0); [reflexivity|]. rewrite nb1 by exact L. cbn [rbind]. change (1 <? 1) with false. cbv iota.
    destruct Hb as [Hb|Hb]; [contradiction|rewrite Hb; reflexivity].
  - intros b r Hb _ IH f Hn Hm Hf. destruct f; [cbn in Hf; lia|]. cbn [strcspn_loop app rd rbind length].
    destruct (N.eqb_spec b 0); [lia|]. rewrite nb1 by lia. cbn [rbind]. change (1 <? 1) with false. cbv iota. cbn [tl].
    rewrite (not_in_set set b (b :: r) Hn (or_introl eq_refl)).
    rewrite IH; [reflexivity| |exact Hm|cbn in Hf; lia]. intros x Hx Hin. exact (Hn x Hx (or_intror Hin)).
  - intros c r Hc L F _ IH f Hn Hm Hf. destruct f; [cbn in Hf; lia|]. cbn [strcspn_loop]. rewrite <- app_assoc.
    destruct (hd_char e c (r ++ m) Hc) as (b & q & Ec & Hb & _).
    rewrite Ec at 1. cbn [rd rbind]. destruct (N.eqb_spec b 0); [contradiction|].
    rewrite nbytes_char by exact Hc. cbn [rbind]. destruct (Nat.ltb_spec 1 (length c)); [|lia].
    rewrite adv_app. cbn [rbind]. rewrite app_length in *.
    rewrite IH; [reflexivity| |exact Hm|lia]. intros x Hx Hin. apply (Hn x Hx). apply in_or_app. right; exact Hin.
  - intros b r Hb Hc _ IH f Hn Hm Hf. destruct f; [cbn in Hf; lia|]. cbn [strcspn_loop app rd rbind length].
    destruct (N.eqb_spec b 0); [lia|]. pose proof (nbytes_char e [b] (r ++ m) Hc) as NB. cbn [app length] in NB. rewrite NB.
    cbn [rbind]. change (1 <? 1) with false. cbv iota. cbn [tl].
    rewrite (not_in_set set b (b :: r) Hn (or_introl eq_refl)).
    rewrite IH; [reflexivity| |exact Hm|cbn in Hf; lia]. intros x Hx Hin. exact (Hn x Hx (or_intror Hin)).
Qed.
Lemma strcspn_ok e set s m : forallb plain set = true -> text e s ->
  (forall x, in_set set x = true -> ~ In x s) -> stops set m -> strcspn e set (s ++ m) = Ok (length s).
Proof. intros. unfold strcspn. apply strcspn_loop_ok; auto. rewrite app_length. lia. Qed.

Lemma strspn_in e set b m : (0 < b < 128)%N -> in_set set b = true ->
  strspn e set (b :: m) = let* n := strspn e set m in Ok (S n).
Proof.
  intros H I. cbn [strspn]. destruct (N.eqb_spec b 0); [lia|]. rewrite nb1 by lia. cbn [rbind]. change (1 <? 1) with false. cbv iota. rewrite I. reflexivity.
Qed.
Lemma strspn_out e set b m : (b < 128)%N -> b = 0%N \/ in_set set b = false -> strspn e set (b :: m) = Ok 0.
Proof.
  intros H [->|I]; [reflexivity|]. cbn [strspn]. destruct (N.eqb_spec b 0); [reflexivity|]. rewrite nb1 by lia. cbn [rbind]. change (1 <? 1) with false. cbv iota. rewrite I. reflexivity.
Qed.

Lemma strchr_found s c m : ~ In c s -> ~ In 0%N s -> strchr (s ++ c :: m) c = Ok (Some (length s)).
Proof.
  induction s as [|b s IH]; intros H1 H2; cbn [app strchr length].
  - rewrite N.eqb_refl. reflexivity.
  - destruct (N.eqb_spec b c) as [->|]; [exfalso; apply H1; left; reflexivity|].
    destruct (N.eqb_spec b 0) as [->|]; [exfalso; apply H2; left; reflexivity|].
    rewrite IH; [reflexivity| |]; intro I; [apply H1|apply H2]; right; exact I.
Qed.
Lemma strchr_none s c m : c <> 0%N -> ~ In c s -> ~ In 0%N s -> strchr (s ++ 0%N :: m) c = Ok None.
Proof.
  intros Hc. induction s as [|b s IH]; intros H1 H2; cbn [app strchr].
  - destruct (N.eqb_spec 0 c); [congruence|]. reflexivity.
  - destruct (N.eqb_spec b c) as [->|]; [exfalso; apply H1; left; reflexivity|].
    destruct (N.eqb_spec b 0) as [->|]; [exfalso; apply H2; left; reflexivity|].
    rewrite IH; [reflexivity| |]; intro I; [apply H1|apply H2]; right; exact I.
Qed.
Lemma strlen_ok s m : ~ In 0%N s -> strlen (s ++ 0%N :: m) = Ok (length s).
Proof. intros H. apply strlen_holds. split; [exact H|]. exists m. reflexivity. Qed.
Lemma bdup_ok s m : ~ In 0%N s -> bdup (s ++ m) (length s) = Ok s.
Proof.
  induction s as [|b s IH]; intros H; [reflexivity|]. cbn [app length bdup].
  destruct (N.eqb_spec b 0) as [->|]; [exfalso; apply H; left; reflexivity|]. rewrite IH; [reflexivity|]. intro I. apply H. right. exact I.
Qed.
Lemma adv_plus s b m : adv (length s + 1) (s ++ b :: m) = Ok m.
Proof.
  replace (length s + 1) with (length (s ++ [b])) by (rewrite app_length; reflexivity).
  replace (s ++ b :: m) with ((s ++ [b]) ++ m) by (rewrite <- app_assoc; reflexivity). apply adv_app.
Qed.
Lemma adv1 b m : adv 1 (b :: m) = Ok m.
Proof. exact (adv_app [b] m). Qed.

(** ** Equality of texts *)
Lemma lex_ccmp_eq cs ds : (lex ccmp cs ds =? 0)%Z = true <-> cs = ds.
Proof.
  rewrite Z.eqb_eq. destruct good_chars as (_ & _ & G3 & _). apply G3; exact I.
Qed.
Lemma teq_ok e a b : text e a -> text e b -> teq e a b = Ok (Scores_Model.same a b).
Proof.
  intros (cs & C1 & _) (ds & C2 & _). unfold teq, strcmp.
  assert (H1 : holds (cstr a) a) by (split; [destruct C1 as (-> & F); exact (chars_no0 e cs F)|exists []; reflexivity]).
  assert (H2 : holds (cstr b) b) by (split; [destruct C2 as (-> & F); exact (chars_no0 e ds F)|exists []; reflexivity]).
  rewrite (strccmp_lex e _ _ a b cs ds (-1) H1 H2 C1 C2) by lia. cbn [rbind]. change (-1 =? -1)%Z with true. cbv iota. f_equal.
  unfold Scores_Model.same. destruct (list_eq_dec N.eq_dec a b) as [->|NE].
  - apply lex_ccmp_eq. destruct C1 as (E1 & F1), C2 as (E2 & F2). apply (chars_inj e); congruence.
  - destruct (lex ccmp cs ds =? 0)%Z eqn:E; [|reflexivity]. exfalso. apply lex_ccmp_eq in E. subst ds.
    apply NE. destruct C1 as (-> & _), C2 as (-> & _). reflexivity.
Qed.
Lemma same_refl a : Scores_Model.same a a = true.
Proof. unfold Scores_Model.same. destruct (list_eq_dec N.eq_dec a a); congruence. Qed.
Lemma same_eq a b : Scores_Model.same a b = true -> a = b.
Proof. unfold Scores_Model.same. destruct (list_eq_dec N.eq_dec a b); congruence. Qed.
Lemma same_neq a b : a <> b -> Scores_Model.same a b = false.
Proof. unfold Scores_Model.same. destruct (list_eq_dec N.eq_dec a b); congruence. Qed.

(** ** The prefix tests of ASCII texts *)
Fixpoint prefix (p s : str) : bool :=
  match p, s with
  | [], _ => true
  | a :: p', b :: s' => (a =? b)%N && prefix p' s'
  | _ :: _, [] => false
  end.
Lemma singles e s : forallb plain s = true -> chars_of e s (map (fun b => [b]) s).
Proof.
  intros H. split; [induction s; cbn; [reflexivity|]; f_equal; apply IHs; cbn in H; apply andb_true_iff in H; tauto|].
  rewrite forallb_forall in H. apply Forall_forall. intros c Hc. apply in_map_iff in Hc as (b & <- & Hb).
  specialize (H b Hb). apply andb_true_iff in H as [H1 H2]. apply N.ltb_lt in H1, H2.
  exists b, []. split; [reflexivity|]. split; [destruct e; cbn [char_size length]; lia|]. constructor; [lia|constructor].
Qed.
Lemma plain_no0 s : forallb plain s = true -> ~ In 0%N s.
Proof. intros H I. rewrite forallb_forall in H. specialize (H _ I). discriminate. Qed.
Lemma lex_prefix p : forall s, (lex ccmp (firstn (length p) (map (fun b => [b]) s)) (map (fun b => [b]) p) =? 0)%Z = prefix p s.
Proof.
  intros s. apply eq_true_iff_eq. rewrite lex_ccmp_eq. revert s.
  induction p as [|a p IH]; intros s; [cbn; tauto|]. destruct s as [|b s]; cbn [length map firstn prefix]; [split; discriminate|].
  rewrite andb_true_iff, N.eqb_eq, <- IH. split; [intros E; injection E as -> E; auto|intros [-> ->]; reflexivity].
Qed.
Lemma starts_ok e s lit n : forallb plain s = true -> forallb plain (B lit) = true -> (1 <= n)%Z -> n = Z.of_nat (length (B lit)) ->
  starts e (cstr s) lit n = Ok (prefix (B lit) s).
Proof.
  intros H1 H2 Hn En. unfold starts.
  rewrite (strccmp_lex e _ _ s (B lit) (map (fun b => [b]) s) (map (fun b => [b]) (B lit)) n).
  - cbn [rbind]. destruct (Z.eqb_spec n (-1)); [lia|]. f_equal. rewrite <- lex_prefix. rewrite En, Nat2Z.id.
    rewrite (firstn_all2 (map _ (B lit))) by (rewrite map_length; lia). reflexivity.
  - split; [apply plain_no0; exact H1|exists []; reflexivity].
  - split; [apply plain_no0; exact H2|exists []; reflexivity].
  - apply singles; exact H1.
  - apply singles; exact H2.
  - lia.
Qed.

(** ** Numbers *)
Definition isd (b : N) : Prop := (48 <= b <= 57)%N.
Lemma isdigit_isd b : isd b -> isdigit b = true.
Proof. intros H. unfold isdigit. apply andb_true_iff. split; apply N.leb_le; unfold isd in H; lia. Qed.
Definition value (acc : N) (ds : str) : N := fold_left (fun a c => (a * 10 + (c - 48))%N) ds acc.
Definition nodigit (s : str) : Prop := match s with [] => True | c :: _ => isdigit c = false end.
Lemma take_ok ds : forall acc n r, Forall isd ds -> nodigit r -> take_digits (ds ++ r) acc n = (value acc ds, n + length ds, r).
Proof.
  induction ds as [|c ds IH]; intros acc n r F R; cbn [app take_digits value fold_left length].
  - rewrite Nat.add_0_r. destruct r as [|c r]; [reflexivity|]. cbn in R. cbn [take_digits]. rewrite R. reflexivity.
  - inversion F; subst. rewrite isdigit_isd by assumption. rewrite IH by assumption. rewrite Nat.add_succ_comm. reflexivity.
Qed.
Lemma value_app acc a b : value acc (a ++ b) = value (value acc a) b.
Proof. apply fold_left_app. Qed.
Lemma isd_mod n : isd (48 + n mod 10).
Proof. pose proof (N.mod_lt n 10 ltac:(lia)) as H. unfold isd. set (r := (n mod 10)%N) in *. lia. Qed.
Lemma digits_ok f : forall n, (n < 10 ^ N.of_nat f)%N -> 0 < f -> value 0 (digits f n) = n /\ Forall isd (digits f n) /\ digits f n <> [].
Proof.
  induction f as [|f IH]; intros n Hn Hf; [lia|]. cbn [digits]. destruct (N.ltb_spec n 10) as [L|L].
  - repeat split; [unfold value; cbn [fold_left]; lia| |discriminate]. constructor; [unfold isd; lia|constructor].
  - assert (Hd : (n / 10 < 10 ^ N.of_nat f)%N).
    { apply N.div_lt_upper_bound; [lia|]. rewrite Nat2N.inj_succ, N.pow_succ_r' in Hn. exact Hn. }
    assert (Hf' : 0 < f). { destruct f; [|lia]. exfalso. change (n < 10)%N in Hn. lia. }
    destruct (IH _ Hd Hf') as (V & F & NE). pose proof (N.mod_lt n 10 ltac:(lia)).
    repeat split.
    + rewrite value_app, V. unfold value. cbn [fold_left]. pose proof (N.div_mod n 10 ltac:(lia)) as D. clear - H D. set (q := (n / 10)%N) in *. set (r := (n mod 10)%N) in *. lia.
    + apply Forall_app. split; [exact F|]. constructor; [apply isd_mod|constructor].
    + destruct (digits f (n / 10)); discriminate.
Qed.
Lemma size_bound n : (n < 10 ^ N.of_nat (S (N.size_nat n)))%N.
Proof.
  assert (H : (n < 2 ^ N.of_nat (N.size_nat n))%N).
  { destruct n as [|p]; [cbn; lia|]. rewrite <- Nnat.Nat2N.inj_pow || idtac.
    pose proof (N.size_gt (Npos p)) as G. unfold N.size in G. cbn [N.size_nat].
    replace (N.of_nat (Pos.size_nat p)) with (Npos (Pos.size p)); [exact G|].
    clear. induction p; cbn [Pos.size Pos.size_nat]; [| |reflexivity]; rewrite Nat2N.inj_succ, <- IHp; reflexivity. }
  eapply N.lt_le_trans; [exact H|]. etransitivity; [apply (N.pow_le_mono_l 2 10); lia|]. apply N.pow_le_mono_r; lia.
Qed.
Lemma nat_text_ok n : value 0 (nat_text n) = n /\ Forall isd (nat_text n) /\ nat_text n <> [].
Proof. apply digits_ok; [apply size_bound|lia]. Qed.
Lemma frac_ok k : forall n acc, (n < 10 ^ N.of_nat k)%N ->
  value acc (frac k n) = (acc * 10 ^ N.of_nat k + n)%N /\ Forall isd (frac k n) /\ length (frac k n) = k.
Proof.
  induction k as [|k IH]; intros n acc Hn; cbn [frac].
  - change (10 ^ N.of_nat 0)%N with 1%N in *. repeat split; [unfold value; cbn [fold_left]; lia|constructor].
  - rewrite Nat2N.inj_succ, N.pow_succ_r' in *.
    assert (Hd : (n / 10 < 10 ^ N.of_nat k)%N) by (apply N.div_lt_upper_bound; lia).
    destruct (IH _ acc Hd) as (V & F & L). pose proof (N.mod_lt n 10 ltac:(lia)) as H. pose proof (N.div_mod n 10 ltac:(lia)) as D. repeat split.
    + rewrite value_app, V. unfold value. cbn [fold_left]. clear - H D. set (q := (n / 10)%N) in *. set (r := (n mod 10)%N) in *.
      set (p := (10 ^ N.of_nat k)%N). nia.
    + apply Forall_app. split; [exact F|]. constructor; [apply isd_mod|constructor].
    + rewrite app_length, L. cbn. lia.
Qed.
Lemma isd_plain s : Forall isd s -> forallb plain s = true.
Proof. intros H. apply forallb_forall. intros b Hb. rewrite Forall_forall in H. specialize (H b Hb). unfold isd in H. unfold plain. apply andb_true_iff. split; apply N.ltb_lt; lia. Qed.
(** bytes of printed numbers *)
Definition numeric (b : N) : Prop := isd b \/ b = 45%N \/ b = 46%N.
Lemma fixed_bytes k z : Forall numeric (fixed k z).
Proof.
  unfold fixed. cbv zeta. apply Forall_app. split; [destruct (z <? 0)%Z; [constructor; [right; left; reflexivity|constructor]|constructor]|].
  apply Forall_app. split; [eapply Forall_impl; [|apply nat_text_ok]; intros; left; assumption|].
  apply Forall_app. split; [constructor; [right; right; reflexivity|constructor]|].
  assert (Hp : (10 ^ N.of_nat k <> 0)%N) by (apply N.pow_nonzero; lia).
  destruct (frac_ok k (Z.abs_N z mod 10 ^ N.of_nat k)%N 0%N (N.mod_lt _ _ Hp)) as (_ & F & _).
  eapply Forall_impl; [|exact F]. intros; left; assumption.
Qed.
Lemma int_bytes z : Forall numeric (int_text z).
Proof.
  unfold int_text. apply Forall_app. split; [destruct (z <? 0)%Z; [constructor; [right; left; reflexivity|constructor]|constructor]|].
  eapply Forall_impl; [|apply nat_text_ok]; intros; left; assumption.
Qed.
Lemma numeric_plain s : Forall numeric s -> forallb plain s = true.
Proof. intros H. apply forallb_forall. intros b Hb. rewrite Forall_forall in H. specialize (H b Hb). unfold numeric, isd in H. unfold plain. apply andb_true_iff. split; apply N.ltb_lt; lia. Qed.
Lemma numeric_not s b : Forall numeric s -> ~ numeric b -> ~ In b s.
Proof. intros H N I. rewrite Forall_forall in H. exact (N (H b I)). Qed.

Lemma sign_digits ds r : Forall isd ds -> ds <> [] -> sign (skip_space (ds ++ r)) = (false, ds ++ r).
Proof.
  intros F NE. destruct ds as [|c ds]; [congruence|]. inversion F as [|? ? Hc _]; subst. unfold isd in Hc. cbn [app skip_space].
  assert (isspace c = false) as ->.
  { unfold isspace. destruct (N.eqb_spec c 32); [lia|]. destruct (N.leb_spec 9 c), (N.leb_spec c 13); cbn; try reflexivity; lia. }
  cbn [sign]. destruct (N.eqb_spec c 45); [lia|]. destruct (N.eqb_spec c 43); [lia|]. reflexivity.
Qed.
Lemma sign_neg r : sign (skip_space (45%N :: r)) = (true, r).
Proof. reflexivity. Qed.
Lemma signed_ok z : signed (z <? 0)%Z (Z.abs_N z) = z.
Proof. unfold signed. destruct (Z.ltb_spec z 0); rewrite N2Z.inj_abs_N; lia. Qed.

Lemma atof_fixed k z : atof (fixed k z) = Ok (z, k).
Proof.
  unfold atof, fixed. cbv zeta. set (p := (10 ^ N.of_nat k)%N). set (a := Z.abs_N z).
  assert (Hp : p <> 0%N) by (apply N.pow_nonzero; lia).
  destruct (nat_text_ok (a / p)) as (V1 & F1 & NE1).
  assert (H : (let '(a0, _, s1) := take_digits (nat_text (a / p) ++ [46%N] ++ frac k (a mod p)) 0 0 in
      let '(a1, d, s2) := (match s1 with c :: r => if (c =? 46)%N then take_digits r a0 0 else (a0, 0, s1) | [] => (a0, 0, s1) end) in
      (a1, d, s2)) = (a, k, [])).
  { rewrite take_ok; [|exact F1|reflexivity]. cbn [app]. change (46 =? 46)%N with true. cbv iota.
    destruct (frac_ok k (a mod p) (value 0 (nat_text (a / p))) (N.mod_lt _ _ Hp)) as (V2 & F2 & L2).
    rewrite <- (app_nil_r (frac k (a mod p))) at 1. rewrite take_ok; [|exact F2|exact I].
    rewrite V2, V1, L2. fold p. repeat f_equal. rewrite (N.div_mod a p Hp) at 3. lia. }
  assert (G : forall neg, (let '(a0, _, s1) := take_digits (nat_text (a / p) ++ [46%N] ++ frac k (a mod p)) 0 0 in
      let '(a1, d, s2) := (match s1 with c :: r => if (c =? 46)%N then take_digits r a0 0 else (a0, 0, s1) | [] => (a0, 0, s1) end) in
      match s2 with
      | c :: _ => if isalpha c then Undef else Ok (signed neg a1, d)
      | [] => Ok (signed neg a1, d)
      end) = Ok (signed neg a, k)).
  { intros neg. destruct (take_digits _ 0 0) as [[a0 n0] s1]. destruct (match s1 with [] => _ | _ => _ end) as [[a1 d] s2].
    injection H as -> -> ->. reflexivity. }
  rewrite <- (signed_ok z) at 2. fold a. destruct (z <? 0)%Z.
  - cbn [app]. rewrite sign_neg. apply G.
  - cbn [app]. rewrite sign_digits by assumption. apply G.
Qed.
Lemma atof_in_fixed k z : atof_in k (fixed k z) = Ok z.
Proof.
  unfold atof_in. rewrite atof_fixed. cbn [rbind]. rewrite Nat.leb_refl, Nat.sub_diag. f_equal. change (10 ^ Z.of_nat 0)%Z with 1%Z. lia.
Qed.
Lemma atoi_int z : atoi (int_text z) = z.
Proof.
  unfold atoi, int_text. destruct (nat_text_ok (Z.abs_N z)) as (V & F & NE).
  assert (G : take_digits (nat_text (Z.abs_N z)) 0 0 = (Z.abs_N z, length (nat_text (Z.abs_N z)), [])).
  { rewrite <- (app_nil_r (nat_text (Z.abs_N z))) at 1. rewrite take_ok; [|exact F|exact I]. rewrite V. reflexivity. }
  rewrite <- (signed_ok z) at 3. destruct (z <? 0)%Z; cbn [app].
  - rewrite sign_neg, G. reflexivity.
  - rewrite <- (app_nil_r (nat_text _)) at 1. rewrite sign_digits by assumption. rewrite app_nil_r, G. reflexivity.
Qed.
Lemma atof_int z : atof_in 0 (int_text z) = Ok z.
Proof.
  unfold atof_in, atof, int_text. destruct (nat_text_ok (Z.abs_N z)) as (V & F & NE).
  assert (G : take_digits (nat_text (Z.abs_N z)) 0 0 = (Z.abs_N z, length (nat_text (Z.abs_N z)), [])).
  { rewrite <- (app_nil_r (nat_text (Z.abs_N z))) at 1. rewrite take_ok; [|exact F|exact I]. rewrite V. reflexivity. }
  rewrite <- (signed_ok z) at 3. destruct (z <? 0)%Z; cbn [app].
  - rewrite sign_neg, G. cbn [rbind Nat.leb Nat.sub]. f_equal. change (10 ^ Z.of_nat 0)%Z with 1%Z. lia.
  - rewrite <- (app_nil_r (nat_text _)) at 1. rewrite sign_digits by assumption. rewrite app_nil_r, G. cbn [rbind Nat.leb Nat.sub]. f_equal. change (10 ^ Z.of_nat 0)%Z with 1%Z. lia.
Qed.
