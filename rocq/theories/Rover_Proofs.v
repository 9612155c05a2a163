From Coq Require Import List Arith ZArith NArith QArith Qminmax Bool Lia Lqa.
From Verif Require Import Base Text_Model Text_Spec Word_Model Word_Spec Word_Thm Rover_Model Rover_Spec.
Import ListNotations.
Local Open Scope res_scope.

Lemma Forall2_length : forall {A B} (P : A -> B -> Prop) l m, Forall2 P l m -> List.length l = List.length m.
Proof. intros A B P l m H. induction H; cbn; congruence. Qed.
Lemma text_eq_spec : forall t u, text_eq t u = true <-> t = u.
Proof. intros t u. unfold text_eq. destruct (list_eq_dec N.eq_dec t u); split; congruence. Qed.
Lemma text_eq_refl : forall t, text_eq t t = true.
Proof. intro t. apply text_eq_spec. reflexivity. Qed.

Lemma firsts_snoc : forall l t, firsts (l ++ [t]) =
  if in_dec (list_eq_dec N.eq_dec) t (firsts l) then firsts l else firsts l ++ [t].
Proof. intros l t. unfold firsts. rewrite fold_left_app. reflexivity. Qed.
Lemma in_firsts : forall l t, In t (firsts l) <-> In t l.
Proof.
  intro l. induction l as [|x l IH] using rev_ind; intro t; [reflexivity|].
  rewrite firsts_snoc, in_app_iff. destruct (in_dec (list_eq_dec N.eq_dec) x (firsts l)) as [I|I].
  - rewrite IH. cbn. split; [auto|]. intros [H|[<-|[]]]; [exact H|]. apply IH, I.
  - rewrite in_app_iff, IH. reflexivity.
Qed.
Lemma firsts_nodup : forall l, NoDup (firsts l).
Proof.
  intro l. induction l as [|x l IH] using rev_ind; [constructor|].
  rewrite firsts_snoc. destruct (in_dec (list_eq_dec N.eq_dec) x (firsts l)) as [I|I]; [exact IH|].
  apply NoDup_rev in IH. rewrite <- (rev_involutive (firsts l ++ [x])). apply NoDup_rev.
  rewrite rev_app_distr. cbn. constructor; [rewrite <- in_rev; exact I|exact IH].
Qed.
Lemma firsts_prefix : forall l m, exists r, firsts (l ++ m) = firsts l ++ r.
Proof.
  intros l m. induction m as [|x m IH] using rev_ind; [exists []; rewrite !app_nil_r; reflexivity|].
  destruct IH as [r E]. rewrite app_assoc, firsts_snoc.
  destruct (in_dec (list_eq_dec N.eq_dec) x (firsts (l ++ m))); [exists r; exact E|].
  exists (r ++ [x]). rewrite E, app_assoc. reflexivity.
Qed.
Lemma firsts_length_mono : forall l m, (List.length (firsts l) <= List.length (firsts (l ++ m)))%nat.
Proof. intros l m. destruct (firsts_prefix l m) as [r ->]. rewrite app_length. lia. Qed.

(** The first proposal of a listed text. *)
Lemma first_proposal : forall (l : list ballot) t, In t (map b_text l) ->
  exists pre x post, l = pre ++ x :: post /\ b_text x = t /\ ~ In t (map b_text pre).
Proof.
  induction l as [|y l IH]; intros t I; [destruct I|].
  destruct (list_eq_dec N.eq_dec (b_text y) t) as [E|E].
  - exists [], y, l. cbn. auto.
  - destruct I as [I|I]; [contradiction|]. destruct (IH t I) as (pre & x & post & -> & T & N).
    exists (y :: pre), x, post. cbn. split; [reflexivity|]. split; [exact T|]. intros [H|H]; auto.
Qed.

Section Tally.
Variable e : enc.

Definition entry_ok (arcs : list varc) (l : list ballot) (t : list N) (x : entry) : Prop :=
  first_with arcs t (n_word x) /\ n_occ x = List.length (votes l t) /\
  (n_sum x == conf_sum (votes l t))%Q /\ (n_max x == conf_max (votes l t))%Q /\
  n_t1 x = zsum (map b_t1 (votes l t)) /\ n_t2 x = zsum (map b_t2 (votes l t)).

Lemma text_unique' : forall w s t, text_is w s -> text_is w t -> s = t.
Proof. intros w s t [[A B]|[A B]] [[C D]|[C D]]; congruence. Qed.

Lemma equal_texts : forall w1 w2 s t, good_word e w1 -> good_word e w2 -> w_frag w1 = false -> w_frag w2 = false ->
  text_is w1 s -> text_is w2 t -> exists z, equal_word e (Some w1) (Some w2) = Ok z /\ (z = 0%Z <-> s = t).
Proof.
  intros w1 w2 s t G1 G2 F1 F2 T1 T2. destruct (C28_verdict e w1 w2 s t G1 G2 T1 T2) as (z & E & H).
  exists z. split; [exact E|]. rewrite F1, F2 in H. exact H.
Qed.

Definition arcs_ok (arcs : list varc) (l : list ballot) : Prop := Forall2 (casts e) arcs l.

Lemma first_with_good : forall arcs l t v, arcs_ok arcs l -> first_with arcs t v ->
  good_word e (v_word v) /\ w_frag (v_word v) = false /\ text_is (v_word v) t.
Proof.
  intros arcs l t v A (pre & a & post & -> & <- & T & _).
  apply Forall2_app_inv_l in A. destruct A as (l1 & l2 & _ & A & _). inversion A as [|? b ? ? C]; subst.
  destruct C as (G & F & _). auto.
Qed.

Lemma search_spec : forall arcs l, arcs_ok arcs l -> forall ts ents w t,
  Forall2 (entry_ok arcs l) ts ents -> good_word e (v_word w) -> w_frag (v_word w) = false -> text_is (v_word w) t ->
  exists i, search e ents w = Ok i /\
    ((In t ts /\ exists a b, ts = a ++ t :: b /\ ~ In t a /\ List.length a = i) \/ (~ In t ts /\ i = List.length ents)).
Proof.
  intros arcs l A ts ents w t H G F T. induction H as [|u x ts ents EX H IH].
  - exists 0%nat. split; [reflexivity|]. right. auto.
  - cbn [search]. destruct (first_with_good arcs l u (n_word x) A (proj1 EX)) as (G1 & F1 & T1).
    destruct (equal_texts _ _ _ _ G1 G F1 F T1 T) as (z & E & Z0). rewrite E. cbn [rbind].
    destruct (Z.eqb_spec z 0) as [Y|Y].
    + exists 0%nat. split; [reflexivity|]. left. apply Z0 in Y. subst u. split; [left; reflexivity|]. exists [], ts. auto.
    + assert (NE : u <> t) by (intro X; apply Y, Z0, X).
      destruct IH as (i & E1 & [(I & a & b & -> & NA & LA)|(I & LA)]); rewrite E1; cbn [rbind]; exists (S i); (split; [reflexivity|]).
      * left. split; [right; exact I|]. exists (u :: a), b. cbn. split; [reflexivity|]. split; [intros [X|X]; auto|lia].
      * right. split; [intros [X|X]; auto|cbn; lia].
Qed.

Lemma votes_snoc : forall l b t, votes (l ++ [b]) t = votes l t ++ (if text_eq (b_text b) t then [b] else []).
Proof. intros l b t. unfold votes. rewrite filter_app. cbn. destruct (text_eq (b_text b) t); reflexivity. Qed.
Lemma qsum_snoc : forall l x, (qsum (l ++ [x]) == qsum l + x)%Q.
Proof. intros l x. unfold qsum. induction l as [|y l IH]; cbn; [ring|]. rewrite IH. ring. Qed.
Lemma zsum_snoc : forall l x, zsum (l ++ [x]) = (zsum l + x)%Z.
Proof. intros l x. unfold zsum. induction l as [|y l IH]; cbn [app fold_right]; [lia|]. rewrite IH. lia. Qed.
Lemma qmax_snoc : forall l x, (fold_right Qmax 0 (l ++ [x]) == Qmax (fold_right Qmax 0 l) x)%Q.
Proof.
  intros l x. induction l as [|y l IH]; cbn; [apply Q.max_comm|].
  rewrite IH. apply Q.max_assoc.
Qed.

Lemma first_with_more : forall arcs a t v, first_with arcs t v -> first_with (arcs ++ [a]) t v.
Proof.
  intros arcs a t v (pre & b & post & -> & H). exists pre, b, (post ++ [a]). rewrite <- app_assoc. split; [reflexivity|exact H].
Qed.

Lemma entry_other : forall arcs l a b t x, entry_ok arcs l t x -> b_text b <> t -> entry_ok (arcs ++ [a]) (l ++ [b]) t x.
Proof.
  intros arcs l a b t x (A & B) N. split; [apply first_with_more, A|].
  rewrite votes_snoc. destruct (text_eq (b_text b) t) eqn:E; [apply text_eq_spec in E; contradiction|]. rewrite app_nil_r. exact B.
Qed.
Lemma entry_same : forall arcs l a b t x, entry_ok arcs l t x -> casts e a b -> b_text b = t ->
  entry_ok (arcs ++ [a]) (l ++ [b]) t (count_in x (snd a)).
Proof.
  intros arcs l a b t x (A & O & S & M & T1 & T2) (_ & _ & _ & C1 & C2 & C3) <-. split; [apply first_with_more, A|].
  rewrite votes_snoc, text_eq_refl. cbn [count_in n_occ n_sum n_max n_t1 n_t2]. unfold conf_sum, conf_max in *. rewrite !map_app. cbn [map].
  split; [rewrite app_length, O; cbn; lia|]. split; [rewrite qsum_snoc, S, C3; reflexivity|].
  split; [rewrite qmax_snoc, M, C3; reflexivity|]. rewrite !zsum_snoc. split; congruence.
Qed.
Lemma entry_new : forall arcs l a b, arcs_ok arcs l -> casts e a b -> ~ In (b_text b) (map b_text l) ->
  entry_ok (arcs ++ [a]) (l ++ [b]) (b_text b) (count_in (fresh (snd a)) (snd a)).
Proof.
  intros arcs l a b A (G & F & T & C1 & C2 & C3) N.
  assert (V : votes l (b_text b) = []).
  { clear A. unfold votes. induction l as [|y l IH]; [reflexivity|]. cbn in *. destruct (text_eq (b_text y) (b_text b)) eqn:E.
    - exfalso. apply N. left. apply text_eq_spec, E.
    - apply IH. intro X. apply N. right. exact X. }
  split.
  - exists arcs, a, []. split; [reflexivity|]. split; [reflexivity|]. split; [exact T|].
    intros a' I X. apply N. clear N V. induction A as [|a0 b0 arcs l CA A IH]; [destruct I|]. destruct I as [<-|I].
    + left. destruct CA as (_ & _ & T0 & _). apply (text_unique' _ _ _ T0 X).
    + right. apply IH, I.
  - rewrite votes_snoc, V, text_eq_refl. cbn [app count_in fresh n_occ n_sum n_max n_t1 n_t2 List.length map].
    unfold conf_sum, conf_max, qsum, zsum. cbn [map fold_right]. rewrite C1, C2, C3.
    split; [reflexivity|]. split; [ring|]. split; [apply Q.max_comm|]. split; lia.
Qed.

Lemma count_at_same : forall arcs l a b t, casts e a b -> b_text b = t -> forall ts1 ts2 ents,
  Forall2 (entry_ok arcs l) (ts1 ++ t :: ts2) ents -> ~ In t ts1 -> ~ In t ts2 ->
  Forall2 (entry_ok (arcs ++ [a]) (l ++ [b])) (ts1 ++ t :: ts2) (count_at ents (List.length ts1) (snd a)).
Proof.
  intros arcs l a b t C T ts1 ts2. induction ts1 as [|u ts1 IH]; intros ents H N1 N2; cbn [app] in *.
  - inversion H as [|? x ? r EX HR]; subst. cbn [count_at List.length]. constructor; [apply entry_same with (b := b); auto|].
    clear - HR N2. induction HR as [|u x ts es EX HR IH]; [constructor|]. constructor.
    + apply entry_other; [exact EX|]. intro X. apply N2. left. congruence.
    + apply IH. intro X. apply N2. right. exact X.
  - inversion H as [|? x ? r EX HR]; subst. cbn [count_at List.length]. constructor.
    + apply entry_other; [exact EX|]. intro X. apply N1. left. congruence.
    + apply IH; [exact HR| |exact N2]. intro X. apply N1. right. exact X.
Qed.
Lemma count_at_new : forall arcs l a b, arcs_ok arcs l -> casts e a b -> ~ In (b_text b) (map b_text l) -> forall ts ents,
  Forall2 (entry_ok arcs l) ts ents -> ~ In (b_text b) ts ->
  Forall2 (entry_ok (arcs ++ [a]) (l ++ [b])) (ts ++ [b_text b]) (count_at ents (List.length ents) (snd a)).
Proof.
  intros arcs l a b A C N ts ents H. induction H as [|u x ts ents EX H IH]; intro NI.
  - cbn [count_at List.length app]. constructor; [|constructor]. apply entry_new; assumption.
  - cbn [count_at List.length app]. constructor.
    + apply entry_other; [exact EX|]. intro X. apply NI. left. congruence.
    + apply IH. intro X. apply NI. right. exact X.
Qed.

(** The table after the arcs: one entry for each text, in the order of first proposals. *)
Lemma tally_spec : forall to rest restb arcs l ents total, arcs_ok arcs l -> arcs_ok rest restb ->
  (forall a, In a rest -> fst a = to) ->
  Forall2 (entry_ok arcs l) (firsts (map b_text l)) ents -> (total == conf_sum l)%Q ->
  (List.length ents <= 49)%nat ->
  match tally e to rest ents total with
  | Ok (ents', total') => Forall2 (entry_ok (arcs ++ rest) (l ++ restb)) (firsts (map b_text (l ++ restb))) ents' /\
      (total' == conf_sum (l ++ restb))%Q /\ (List.length (firsts (map b_text (l ++ restb))) <= 49)%nat
  | Exit => (49 < List.length (firsts (map b_text (l ++ restb))))%nat
  | _ => False
  end.
Proof.
  intros to rest. induction rest as [|[t0 w] rest IH]; intros restb arcs l ents total A B TO H TT LE.
  - inversion B; subst. rewrite !app_nil_r. cbn [tally]. split; [exact H|]. split; [exact TT|].
    pose proof (Forall2_length _ _ _ H). lia.
  - inversion B as [|? b ? restb' C B']; subst. cbn [tally].
    assert (T0 : t0 = to) by (specialize (TO (t0, w) (or_introl eq_refl)); exact TO). subst t0. rewrite Nat.eqb_refl. cbn [negb].
    pose proof C as (G & F & T & _ & _ & C3). cbn [snd] in G, F, T, C3.
    destruct (search_spec arcs l A _ _ w (b_text b) H G F T) as (i & E & D). rewrite E. cbn [rbind].
    pose proof (Forall2_length _ _ _ H) as LH.
    assert (A' : arcs_ok (arcs ++ [(to, w)]) (l ++ [b])) by (apply Forall2_app; [exact A|constructor; [exact C|constructor]]).
    assert (TT' : (total + v_conf w == conf_sum (l ++ [b]))%Q).
    { unfold conf_sum in *. rewrite map_app. cbn [map]. rewrite qsum_snoc, TT, C3. reflexivity. }
    assert (TO' : forall a, In a rest -> fst a = to) by (intros a I; apply TO; right; exact I).
    assert (FM : firsts (map b_text (l ++ [b])) = if in_dec (list_eq_dec N.eq_dec) (b_text b) (firsts (map b_text l)) then firsts (map b_text l) else firsts (map b_text l) ++ [b_text b]).
    { rewrite map_app. cbn [map]. apply firsts_snoc. }
    destruct D as [(I & ts1 & ts2 & ES & N1 & LI)|(NI & LI)].
    + assert (LL : (i < List.length ents)%nat) by (rewrite <- LH, ES, app_length; cbn; lia).
      destruct (Nat.eqb_spec i (List.length ents)); [lia|]. cbn [andb].
      specialize (IH restb' (arcs ++ [(to, w)]) (l ++ [b]) (count_at ents i w) (total + v_conf w)%Q A' B' TO').
      rewrite <- !app_assoc in IH. cbn [app] in IH. apply IH; [| exact TT' |].
      * rewrite FM. destruct (in_dec (list_eq_dec N.eq_dec) (b_text b) (firsts (map b_text l))) as [J|J]; [|contradiction].
        pose proof (firsts_nodup (map b_text l)) as ND. rewrite ES in H, ND |- *. apply NoDup_remove_2 in ND.
        rewrite <- LI. apply (count_at_same arcs l (to, w) b (b_text b) C eq_refl ts1 ts2 ents H N1). intro X. apply ND. apply in_or_app. right. exact X.
      * assert (LC : forall es j, (j < List.length es)%nat -> List.length (count_at es j w) = List.length es).
        { induction es as [|x es IE]; intros j J; [cbn in J; lia|]. destruct j; cbn [count_at List.length]; [reflexivity|]. rewrite IE; [reflexivity|cbn in J; lia]. }
        rewrite LC; assumption.
    + assert (NL : ~ In (b_text b) (map b_text l)) by (rewrite <- in_firsts; exact NI).
      subst i. rewrite Nat.eqb_refl. cbn [andb].
      assert (HN : Forall2 (entry_ok (arcs ++ [(to, w)]) (l ++ [b])) (firsts (map b_text (l ++ [b]))) (count_at ents (List.length ents) w)).
      { rewrite FM. destruct (in_dec (list_eq_dec N.eq_dec) (b_text b) (firsts (map b_text l))) as [J|J]; [contradiction|].
        apply (count_at_new arcs l (to, w) b A C NL _ _ H NI). }
      assert (LN : List.length (count_at ents (List.length ents) w) = S (List.length ents)).
      { clear. induction ents as [|x es IE]; cbn [count_at List.length]; [reflexivity|]. rewrite IE. reflexivity. }
      destruct (Nat.eqb_spec (List.length ents) 49) as [Q9|Q9].
      * pose proof (firsts_length_mono (map b_text (l ++ [b])) (map b_text restb')) as MM.
        rewrite <- map_app, <- app_assoc in MM. cbn [app] in MM. pose proof (Forall2_length _ _ _ HN). lia.
      * specialize (IH restb' (arcs ++ [(to, w)]) (l ++ [b]) (count_at ents (List.length ents) w) (total + v_conf w)%Q A' B' TO' HN TT' ltac:(lia)).
        rewrite <- !app_assoc in IH. exact IH.
Qed.
End Tally.

(** The choice among finite scores. *)
Lemma choose_spec : forall s n total l qs, Forall2 (fun x q => exists q', score s n total x = Ok (Fin q') /\ (q' == q)%Q) l qs ->
  forall i best top, exists r, choose s n total l i best (Fin top) = Ok r /\
   ((r = best /\ forall q, In q qs -> (q <= top)%Q) \/
    (exists a q b, qs = a ++ q :: b /\ r = Some (i + List.length a)%nat /\ (top < q)%Q /\
       (forall x, In x a -> (x < q)%Q) /\ (forall x, In x b -> (x <= q)%Q))).
Proof.
  intros s n total l qs H. induction H as [|x q l qs (q' & E & EQ) H IH]; intros i best top.
  - exists best. split; [reflexivity|]. left. split; [reflexivity|]. intros q [].
  - cbn [choose]. rewrite E. cbn [rbind gt]. destruct (Qle_bool q' top) eqn:L; cbn [negb].
    + apply Qle_bool_iff in L. destruct (IH (S i) best top) as (r & ER & [(-> & A)|(a & q1 & b & -> & -> & G & A & B)]).
      * exists best. split; [exact ER|]. left. split; [reflexivity|]. intros z [<-|I]; [lra|auto].
      * eexists. split; [exact ER|]. right. exists (q :: a), q1, b. split; [reflexivity|]. split; [cbn; f_equal; lia|].
        split; [exact G|]. split; [intros z [<-|I]; [lra|auto]|exact B].
    + assert (L' : (top < q')%Q) by (apply Qnot_le_lt; intro X; apply Qle_bool_iff in X; congruence).
      destruct (IH (S i) (Some i) q') as (r & ER & [(-> & A)|(a & q1 & b & -> & -> & G & A & B)]).
      * eexists. split; [exact ER|]. right. exists [], q, qs. split; [reflexivity|]. split; [cbn; f_equal; lia|].
        split; [lra|]. split; [intros z []|]. intros z I. specialize (A z I). lra.
      * eexists. split; [exact ER|]. right. exists (q :: a), q1, b. split; [reflexivity|]. split; [cbn; f_equal; lia|].
        split; [lra|]. split; [intros z [<-|I]; [lra|auto]|exact B].
Qed.
