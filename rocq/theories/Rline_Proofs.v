From Coq Require Import List NArith ZArith Arith Bool Lia.
From Verif Require Import Base Rfilter_Model Rline_Model Rline_Spec.
Import ListNotations.
Local Open Scope res_scope.

Lemma white_space c : isspace c = true <-> white c.
Proof.
  unfold isspace, white. rewrite orb_true_iff, andb_true_iff, N.eqb_eq, !N.leb_le. cbn [In]. lia.
Qed.
Lemma not_white c : ~ white c -> isspace c = false.
Proof. intros H. destruct (isspace c) eqn:E; [|reflexivity]. apply white_space in E. contradiction. Qed.

Lemma find_arrow_cons2 x y r : find_arrow (x :: y :: r) = if ((x =? 61) && (y =? 62))%N then Some 0 else option_map S (find_arrow (y :: r)).
Proof. reflexivity. Qed.
Lemma find_arrow_ok p r : ~ has_arrow p -> find_arrow (p ++ arrow ++ r) = Some (length p).
Proof.
  induction p as [|x p IH]; intros H; [reflexivity|].
  assert (~ has_arrow p) as H' by (intros [a [b E]]; apply H; exists (x :: a), b; now rewrite E).
  specialize (IH H'). cbn [app length]. destruct p as [|y p].
  - cbn [app arrow]. rewrite find_arrow_cons2. rewrite (proj2 (N.eqb_neq 61 62)) by lia. rewrite andb_false_r.
    cbn [app arrow] in IH. rewrite IH. reflexivity.
  - cbn [app] in *. rewrite find_arrow_cons2, IH. destruct ((x =? 61) && (y =? 62))%N eqn:E; [|reflexivity].
    exfalso. apply andb_true_iff in E. rewrite !N.eqb_eq in E. destruct E as [-> ->]. apply H. exists [], p. reflexivity.
Qed.
Lemma white_not c d : white c -> ~ white d -> c <> d.
Proof. congruence. Qed.
Lemma white_61 : ~ white 61. Proof. unfold white. cbn. lia. Qed.
Lemma white_62 : ~ white 62. Proof. unfold white. cbn. lia. Qed.
Lemma white_47 : ~ white 47. Proof. unfold white. cbn. lia. Qed.
Lemma white_95 : ~ white 95. Proof. unfold white. cbn. lia. Qed.
Lemma arrow_blanks_l s x : blanks s -> has_arrow (s ++ x) -> has_arrow x.
Proof.
  induction 1 as [|c s W B IH]; intros H; [exact H|]. apply IH. destruct H as [[|y a] [b E]]; cbn in E; injection E as E1 E2.
  - subst. now apply white_61 in W.
  - exists a, b. exact E2.
Qed.
Lemma arrow_blanks_r s x : blanks s -> has_arrow (x ++ s) -> has_arrow x.
Proof.
  intros B. induction x as [|c x IH]; intros H.
  - exfalso. cbn in H. destruct H as [a [b E]]. subst s. apply Forall_app in B. destruct B as [_ B]. inversion B; subst. now apply white_61.
  - destruct H as [[|y a] [b E]]; cbn in E.
    + injection E as -> E. destruct x as [|d x]; cbn in E.
      * exfalso. subst s. inversion B; subst. now apply white_62.
      * injection E as -> E. exists [], x. reflexivity.
    + injection E as -> E. destruct IH as [a' [b' E']]; [exists a, b; exact E|]. exists (y :: a'), b'. now rewrite E'.
Qed.
Lemma strrchr_none l c : ~ In c l -> strrchr l c = None.
Proof.
  induction l as [|x l IH]; intros H; [reflexivity|]. cbn. rewrite IH by (intros X; apply H; now right).
  rewrite (proj2 (N.eqb_neq x c)); [reflexivity|]. intros ->. apply H. now left.
Qed.
Lemma strrchr_ok p q c : ~ In c q -> strrchr (p ++ c :: q) c = Some (length p).
Proof.
  intros H. induction p as [|x p IH]; cbn [app strrchr length]; [now rewrite strrchr_none, N.eqb_refl|now rewrite IH].
Qed.
Lemma strchr_none l c : ~ In c l -> strchr l c = None.
Proof.
  induction l as [|x l IH]; intros H; [reflexivity|]. cbn. rewrite IH by (intros X; apply H; now right).
  rewrite (proj2 (N.eqb_neq x c)); [reflexivity|]. intros ->. apply H. now left.
Qed.
Lemma strchr_ok p q c : ~ In c p -> strchr (p ++ c :: q) c = Some (length p).
Proof.
  induction p as [|x p IH]; intros H; cbn [app strchr length]; [now rewrite N.eqb_refl|].
  rewrite (proj2 (N.eqb_neq x c)) by (intros ->; apply H; now left). rewrite IH; [reflexivity|]. intros X. apply H. now right.
Qed.
Lemma first_split (c : N) l : In c l -> exists u v, l = u ++ c :: v /\ ~ In c u.
Proof.
  induction l as [|x l IH]; intros H; [destruct H|]. destruct (N.eq_dec x c) as [->|NE].
  - exists [], l. split; [reflexivity|]. intros [].
  - destruct H as [H|H]; [congruence|]. destruct (IH H) as [u [v [-> N]]]. exists (x :: u), v. split; [reflexivity|].
    intros [X|X]; [congruence|now apply N].
Qed.
Lemma before_opens q : before (strchr (47 :: q)%N 93) (strchr (47 :: q)%N 91) = false <-> opens q.
Proof.
  cbn [strchr]. rewrite (proj2 (N.eqb_neq 47 93)), (proj2 (N.eqb_neq 47 91)) by lia. unfold opens.
  destruct (in_dec N.eq_dec 91%N q) as [I|I].
  - destruct (first_split _ _ I) as [u [v [E NU]]]. rewrite E, (strchr_ok u v 91 NU). cbn [option_map].
    destruct (in_dec N.eq_dec 93%N u) as [J|J].
    + destruct (first_split _ _ J) as [u1 [u2 [E2 N2]]]. rewrite E2, <- app_assoc. cbn [app]. rewrite (strchr_ok u1 _ 93 N2). cbn [option_map before].
      rewrite app_length. cbn [length]. rewrite (proj2 (Nat.ltb_lt _ _)) by lia. split; [discriminate|].
      intros [H|[u' [v' [X [NX [NY _]]]]]]; exfalso.
      * apply H. apply in_or_app. right. right. apply in_or_app. right. now left.
      * assert (In 93%N u' ) as Z0; [|contradiction]. assert (u' = u).
        { clear - X NX NU E2. subst u. revert X NX NU.
          assert (forall a b c d : list N, a ++ 91%N :: b = c ++ 91%N :: d -> ~ In 91%N a -> ~ In 91%N c -> a = c) as G.
          { induction a as [|x a IH]; intros b [|y c] d H A C; cbn in H; [reflexivity| | |].
            - injection H as <- _. exfalso. apply C. now left.
            - injection H as -> _. exfalso. apply A. now left.
            - injection H as -> H. f_equal. apply (IH b c d H); intros Z0; [apply A|apply C]; now right. }
          intros X NX NU. symmetry. apply (G (u1 ++ 93%N :: u2) v u' v'); [|exact NU|exact NX].
          rewrite <- app_assoc. cbn [app]. exact X. }
        subst u'. exact J.
    + destruct (in_dec N.eq_dec 93%N v) as [K|K].
      * destruct (first_split _ _ K) as [v1 [v2 [E2 N2]]]. rewrite E2.
        replace (u ++ 91%N :: v1 ++ 93%N :: v2) with ((u ++ 91%N :: v1) ++ 93%N :: v2) by (now rewrite <- app_assoc).
        rewrite strchr_ok by (intros X; apply in_app_or in X; destruct X as [X|[X|X]]; [now apply J|lia|now apply N2]).
        cbn [option_map before]. rewrite app_length. cbn [length]. rewrite (proj2 (Nat.ltb_ge _ _)) by lia.
        split; [|reflexivity]. intros _. right. exists u, (v1 ++ 93%N :: v2). rewrite <- app_assoc. repeat split; auto.
        apply in_or_app. right. now left.
      * rewrite strchr_none by (intros X; apply in_app_or in X; destruct X as [X|[X|X]]; [now apply J|lia|now apply K]).
        cbn [option_map before]. split; [discriminate|]. intros [H|[u' [v' [X [NX [NY Y]]]]]]; exfalso.
        -- apply H. apply in_or_app. right. now left.
        -- assert (In 93%N (u ++ 91%N :: v)) as Z0 by (rewrite X; apply in_or_app; right; right; exact Y).
           apply in_app_or in Z0. destruct Z0 as [Z0|[Z0|Z0]]; [now apply J|lia|now apply K].
  - rewrite (strchr_none q 91 I). cbn [option_map before]. split; [now left|]. intros _. now destruct (strchr q 93).
Qed.
Lemma pltrimf_ok sp c r : blanks sp -> ~ white c -> pltrimf (sp ++ c :: r) = length sp.
Proof.
  intros B W. induction B as [|x sp X B IH]; cbn [app pltrimf length]; [now rewrite not_white|].
  apply white_space in X. now rewrite X, IH.
Qed.
Lemma prtrim_blanks sp : blanks sp -> prtrim sp = (-1)%Z.
Proof. induction 1 as [|x sp X B IH]; [reflexivity|]. cbn [prtrim]. rewrite IH. apply white_space in X. now rewrite X. Qed.
Lemma prtrim_ok l c sp : blanks sp -> ~ white c -> prtrim (l ++ c :: sp) = Z.of_nat (length l).
Proof.
  intros B W. induction l as [|x l IH]; cbn [app prtrim length].
  - rewrite prtrim_blanks by exact B. cbn. now rewrite not_white.
  - rewrite IH. rewrite (proj2 (Z.eqb_neq _ _)) by lia. lia.
Qed.
Lemma at_mid a c b i : i = Z.of_nat (length a) -> at_ (a ++ c :: b) i = Ok c.
Proof.
  intros ->. unfold at_. rewrite (proj2 (Z.ltb_ge _ _)) by lia. rewrite Nat2Z.id, nth_error_app2, Nat.sub_diag by lia. reflexivity.
Qed.
Lemma blanks_snoc sp : blanks sp -> sp = [] \/ exists s c, sp = s ++ [c] /\ blanks s /\ white c.
Proof.
  intros B. destruct sp as [|x sp'] eqn:E using rev_ind; [now left|]. right. apply Forall_app in B. destruct B as [B W].
  inversion W; subst. eauto.
Qed.
Lemma back_check_ok x c : forall sp y fuel start e, blanks sp -> ~ white c -> (start <= Z.of_nat (length x))%Z ->
  e = Z.of_nat (length x + length sp) -> length sp < fuel ->
  back_check fuel (x ++ c :: sp ++ y) start e = Ok (Z.of_nat (length x)).
Proof.
  intros sp. induction sp as [|d sp IH] using rev_ind; intros y fuel start e B W ST -> FU; (destruct fuel as [|fuel]; [lia|]); cbn [back_check].
  - cbn [app length] in *. rewrite Nat.add_0_r. destruct (_ >? _)%Z; [|reflexivity].
    rewrite (at_mid x c y) by reflexivity. cbn [rbind]. now rewrite not_white.
  - apply Forall_app in B. destruct B as [B D]. inversion D as [|? ? D' _]; subst.
    rewrite app_length in *. cbn [length] in *. rewrite (proj2 (Z.gtb_lt _ _)) by lia.
    rewrite <- !app_assoc. cbn [app].
    replace (x ++ c :: sp ++ d :: y) with ((x ++ c :: sp) ++ d :: y) by (now rewrite <- app_assoc).
    rewrite at_mid by (rewrite app_length; cbn [length]; lia). cbn [rbind]. apply white_space in D'. rewrite D'.
    rewrite <- app_assoc. cbn [app]. apply (IH (d :: y)); [exact B|exact W|exact ST|lia|lia].
Qed.
Lemma back_read_ok x c : forall sp y fuel start e, blanks sp -> ~ white c -> (start <= Z.of_nat (length x))%Z ->
  e = Z.of_nat (length x + length sp) -> length sp < fuel ->
  back_read fuel (x ++ c :: sp ++ y) start e = Ok (Z.of_nat (length x)).
Proof.
  intros sp. induction sp as [|d sp IH] using rev_ind; intros y fuel start e B W ST -> FU; (destruct fuel as [|fuel]; [lia|]); cbn [back_read].
  - cbn [app length] in *. rewrite Nat.add_0_r.
    rewrite (at_mid x c y) by reflexivity. cbn [rbind]. now rewrite not_white.
  - apply Forall_app in B. destruct B as [B D]. inversion D as [|? ? D' _]; subst.
    rewrite app_length in *. cbn [length] in *.
    rewrite <- !app_assoc. cbn [app].
    replace (x ++ c :: sp ++ d :: y) with ((x ++ c :: sp) ++ d :: y) by (now rewrite <- app_assoc).
    rewrite at_mid by (rewrite app_length; cbn [length]; lia). cbn [rbind]. apply white_space in D'. rewrite D'.
    rewrite (proj2 (Z.gtb_lt _ _)) by lia. cbn [andb].
    rewrite <- app_assoc. cbn [app]. apply (IH (d :: y)); [exact B|exact W|exact ST|lia|lia].
Qed.
Lemma skip_space_ok : forall sp x c y fuel s, blanks sp -> ~ white c -> s = Z.of_nat (length x) -> length sp < fuel ->
  skip_space fuel (x ++ sp ++ c :: y) s = Ok (Z.of_nat (length x + length sp)).
Proof.
  induction sp as [|d sp IH]; intros x c y fuel s B W -> FU; (destruct fuel as [|fuel]; [lia|]); cbn [skip_space app].
  - rewrite at_mid by reflexivity. cbn [rbind]. rewrite not_white by exact W. cbn [length]. now rewrite Nat.add_0_r.
  - rewrite at_mid by reflexivity. cbn [rbind]. inversion B; subst. rewrite (proj2 (white_space d)) by assumption.
    replace (x ++ d :: sp ++ c :: y) with ((x ++ [d]) ++ sp ++ c :: y) by (now rewrite <- app_assoc).
    rewrite IH; [|assumption|exact W|rewrite app_length; cbn; lia|cbn in FU; lia].
    rewrite app_length. cbn [length]. f_equal. lia.
Qed.
Definition solid (t : text) : Prop := Forall (fun c => ~ white c) t.
(** to the first blank *)
Lemma skip_word_blank : forall nn x c y fuel s e, solid nn -> white c -> s = Z.of_nat (length x) ->
  (Z.of_nat (length x + length nn) <= e)%Z -> length nn < fuel ->
  skip_word fuel (x ++ nn ++ c :: y) s e = Ok (Z.of_nat (length x + length nn)).
Proof.
  induction nn as [|d nn IH]; intros x c y fuel s e B W -> EN FU; (destruct fuel as [|fuel]; [lia|]); cbn [skip_word app].
  - rewrite at_mid by reflexivity. cbn [rbind]. rewrite (proj2 (white_space c)) by exact W. cbn [negb andb length]. now rewrite Nat.add_0_r.
  - rewrite at_mid by reflexivity. cbn [rbind]. inversion B; subst. rewrite not_white by assumption. cbn [length negb andb] in *.
    rewrite (proj2 (Z.ltb_lt _ _)) by lia.
    replace (x ++ d :: nn ++ c :: y) with ((x ++ [d]) ++ nn ++ c :: y) by (now rewrite <- app_assoc).
    rewrite IH; [|assumption|exact W|rewrite app_length; cbn; lia|rewrite app_length; cbn; lia|lia].
    rewrite app_length. cbn [length]. f_equal. lia.
Qed.
(** to the end *)
Lemma skip_word_end : forall nn x y fuel s e, solid nn -> nn <> [] -> s = Z.of_nat (length x) ->
  e = (Z.of_nat (length x + length nn) - 1)%Z -> length nn <= fuel ->
  skip_word fuel (x ++ nn ++ y) s e = Ok e.
Proof.
  induction nn as [|d nn IH]; intros x y fuel s e B NE -> EN FU; [congruence|]. (destruct fuel as [|fuel]; [cbn in FU; lia|]); cbn [skip_word app].
  rewrite at_mid by reflexivity. cbn [rbind]. inversion B; subst. rewrite not_white by assumption. cbn [length negb andb] in *.
  destruct nn as [|d' nn].
  - cbn [length]. rewrite (proj2 (Z.ltb_ge _ _)) by lia. f_equal. lia.
  - rewrite (proj2 (Z.ltb_lt _ _)) by (cbn [length]; lia).
    replace (x ++ d :: (d' :: nn) ++ y) with ((x ++ [d]) ++ (d' :: nn) ++ y) by (now rewrite <- app_assoc).
    apply IH; [assumption|discriminate|rewrite app_length; cbn; lia|rewrite app_length; cbn [length]; lia|lia].
Qed.
Lemma firstn_len_app {A} (a b : list A) n : n = length a -> firstn n (a ++ b) = a.
Proof. intros ->. rewrite firstn_app, firstn_all, Nat.sub_diag. cbn. apply app_nil_r. Qed.
Lemma skipn_len_app {A} (a b : list A) n : n = length a -> skipn n (a ++ b) = b.
Proof. intros ->. rewrite skipn_app, skipn_all, Nat.sub_diag. reflexivity. Qed.
Lemma substr_ok x v y s e : length v <= 131 -> s = Z.of_nat (length x) -> e = (Z.of_nat (length x + length v) - 1)%Z ->
  substr_to_str (x ++ v ++ y) s e = v.
Proof.
  intros L -> ->. unfold substr_to_str. cbv zeta. rewrite Nat2Z.id.
  replace (Z.to_nat _) with (length v) by lia. rewrite (proj2 (Nat.ltb_lt _ _)) by lia.
  rewrite skipn_len_app by reflexivity. now apply firstn_len_app.
Qed.
Lemma field_ends f v : field f v -> exists a, (exists m, f = a :: m) /\ ~ white a /\ exists m z, f = m ++ [z] /\ ~ white z.
Proof.
  intros F. destruct F as [v|v|v [N0 [A Z0]] _ _ _].
  - exists 91%N. split; [eauto|]. split; [unfold white; cbn; lia|]. exists (91%N :: v), 93%N. split; [reflexivity|]. unfold white; cbn; lia.
  - exists 34%N. split; [eauto|]. split; [unfold white; cbn; lia|]. exists (34%N :: v), 34%N. split; [reflexivity|]. unfold white; cbn; lia.
  - destruct v as [|a m] eqn:E; [congruence|]. exists a. split; [eauto|]. split; [exact A|].
    exists (removelast v), (last v 0%N). subst v. split; [|exact Z0]. now apply app_removelast_last.
Qed.
Lemma unbound_ok x f v y : field f v -> length f <= 131 ->
  unbound (x ++ f ++ y) (Z.of_nat (length x)) (Z.of_nat (length x + length f) - 1) = Ok v.
Proof.
  intros F L. unfold unbound.
  destruct F as [v|v|v [N0 [A Z0]] NB NQ NS].
  - cbn [app]. rewrite at_mid by reflexivity. cbn [rbind].
    replace (x ++ 91%N :: (v ++ [93%N]) ++ y) with ((x ++ 91%N :: v) ++ 93%N :: y) by (rewrite <- !app_assoc; reflexivity).
    rewrite at_mid by (rewrite !app_length; cbn [length]; rewrite app_length; cbn [length]; lia). cbn [rbind].
    rewrite !N.eqb_refl. cbn [andb orb]. f_equal.
    replace ((x ++ 91%N :: v) ++ 93%N :: y) with ((x ++ [91%N]) ++ v ++ 93%N :: y) by (rewrite <- !app_assoc; reflexivity).
    cbn [length] in L. rewrite app_length in L. apply substr_ok; [lia| |]; rewrite ?app_length; cbn [length]; rewrite ?app_length; cbn [length]; lia.
  - cbn [app]. rewrite at_mid by reflexivity. cbn [rbind].
    replace (x ++ 34%N :: (v ++ [34%N]) ++ y) with ((x ++ 34%N :: v) ++ 34%N :: y) by (rewrite <- !app_assoc; reflexivity).
    rewrite at_mid by (rewrite !app_length; cbn [length]; rewrite app_length; cbn [length]; lia). cbn [rbind].
    rewrite !N.eqb_refl. cbn [andb orb]. rewrite orb_true_r. f_equal.
    replace ((x ++ 34%N :: v) ++ 34%N :: y) with ((x ++ [34%N]) ++ v ++ 34%N :: y) by (rewrite <- !app_assoc; reflexivity).
    cbn [length] in L. rewrite app_length in L. apply substr_ok; [lia| |]; rewrite ?app_length; cbn [length]; rewrite ?app_length; cbn [length]; lia.
  - assert (exists a m, v = a :: m) as [a [m Ev]] by (destruct v; [congruence|eauto]).
    assert (at_ (x ++ v ++ y) (Z.of_nat (length x)) = Ok a) as ->.
    { subst v. cbn [app]. now apply at_mid. }
    cbn [rbind]. assert (v = removelast v ++ [last v 0%N]) as Ez by (now apply app_removelast_last).
    set (z := last v 0%N) in *. set (w := removelast v) in *.
    assert (at_ (x ++ v ++ y) (Z.of_nat (length x + length v) - 1) = Ok z) as ->.
    { rewrite Ez at 1. rewrite <- app_assoc. cbn [app].
      replace (x ++ w ++ z :: y) with ((x ++ w) ++ z :: y) by (now rewrite <- app_assoc).
      apply at_mid. rewrite Ez, !app_length. cbn [length]. lia. }
    cbn [rbind].
    assert ((((a =? 91) && (z =? 93)) || ((a =? 34) && (z =? 34)))%N = false) as ->.
    { destruct w as [|a' w'].
      - cbn [app] in Ez. rewrite Ev in Ez. injection Ez as -> ->.
        destruct ((z =? 34)%N) eqn:E; [apply N.eqb_eq in E; rewrite Ev, E in NS; congruence|]. rewrite andb_false_r, orb_false_r.
        destruct ((z =? 91) && (z =? 93))%N eqn:E2; [|reflexivity]. apply andb_true_iff in E2. rewrite !N.eqb_eq in E2. lia.
      - rewrite Ev in Ez. cbn [app] in Ez. injection Ez as <- Em.
        destruct ((a =? 91) && (z =? 93))%N eqn:E1.
        + exfalso. apply andb_true_iff in E1. rewrite !N.eqb_eq in E1. destruct E1 as [-> E1]. apply NB. exists w'. rewrite Ev, Em. now rewrite E1.
        + destruct ((a =? 34) && (z =? 34))%N eqn:E2; [|reflexivity]. exfalso. apply andb_true_iff in E2. rewrite !N.eqb_eq in E2.
          destruct E2 as [-> E2]. apply NQ. exists w'. rewrite Ev, Em. now rewrite E2. }
    f_equal. apply substr_ok; [exact L|reflexivity|reflexivity].
Qed.
Lemma item_end nn it v : solid nn -> nn <> [] -> item it v -> exists w z, nn ++ it = w ++ [z] /\ ~ white z.
Proof.
  intros S N0 I. destruct I as [|sp f v B NS F].
  - rewrite app_nil_r. exists (removelast nn), (last nn 0%N). split; [now apply app_removelast_last|].
    assert (In (last nn 0%N) nn) as L.
    { rewrite (app_removelast_last 0%N N0) at 2. apply in_or_app. right. now left. }
    unfold solid in S. rewrite Forall_forall in S. now apply S.
  - destruct (field_ends _ _ F) as [_ [_ [_ [m [z [E W]]]]]]. exists (nn ++ sp ++ m), z. split; [|exact W].
    rewrite E, <- !app_assoc. reflexivity.
Qed.
Lemma get_item_ok a nn it v y e : solid nn -> nn <> [] -> item it v -> length it <= 131 ->
  e = (Z.of_nat (length a + length nn + length it) - 1)%Z ->
  get_item (a ++ nn ++ it ++ y) (Z.of_nat (length a)) e = Ok v.
Proof.
  intros S N0 I L ->. unfold get_item. cbv zeta. destruct I as [|sp f v B NS F].
  - cbn [app length] in *. rewrite (skip_word_end nn a y).
    + cbn [rbind]. now rewrite Z.ltb_irrefl.
    + exact S.
    + exact N0.
    + reflexivity.
    + lia.
    + rewrite !app_length. lia.
  - destruct (field_ends _ _ F) as [c [[m Em] [W _]]]. destruct sp as [|d sp]; [congruence|]. inversion B as [|? ? D B']; subst.
    rewrite <- app_assoc. cbn [app]. rewrite (skip_word_blank nn a d); [|exact S|exact D|reflexivity| |rewrite !app_length; lia].
    + cbn [rbind]. rewrite (proj2 (Z.ltb_lt _ _)); [|cbn [length] in *; rewrite app_length in *; cbn [length] in *; lia].
      replace (a ++ nn ++ d :: sp ++ c :: m ++ y) with ((a ++ nn) ++ (d :: sp) ++ c :: (m ++ y)) by (now rewrite <- app_assoc).
      rewrite (skip_space_ok (d :: sp) (a ++ nn) c (m ++ y)); [|exact B|exact W|now rewrite app_length|rewrite !app_length; cbn; lia].
      cbn [rbind]. replace ((a ++ nn) ++ (d :: sp) ++ c :: m ++ y) with ((a ++ nn ++ d :: sp) ++ (c :: m) ++ y) by (rewrite <- !app_assoc; reflexivity).
      replace (Z.of_nat (length (a ++ nn) + length (d :: sp))) with (Z.of_nat (length (a ++ nn ++ d :: sp))) by (rewrite !app_length; lia).
      replace (Z.of_nat (length a + length nn + length (d :: sp ++ c :: m)) - 1)%Z
        with (Z.of_nat (length (a ++ nn ++ d :: sp) + length (c :: m)) - 1)%Z by (cbn [length]; rewrite !app_length; cbn [length]; rewrite ?app_length; cbn [length]; lia).
      apply unbound_ok; [exact F|]. rewrite app_length in L. lia.
    + cbn [length]. rewrite app_length. cbn [length]. lia.
Qed.
