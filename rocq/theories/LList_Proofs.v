From Coq Require Import List Arith Bool Lia.
From Verif Require Import Base LList_Model LList_Spec.
Import ListNotations.

Section P.
Context {D : Type}.
Notation heap := (heap D).

Inductive chain (h : heap) : ptr -> list nat -> list D -> Prop :=
| ch_nil : chain h None [] []
| ch_cons a d p as_ l : h a = Some {| n_data := d; n_next := p |} -> chain h p as_ l ->
    chain h (Some a) (a :: as_) (d :: l).

Lemma chain_holds h p as_ l : chain h p as_ l -> holds_list h p l.
Proof. induction 1; econstructor; eauto. Qed.
Lemma chain_frame h p as_ l b c : chain h p as_ l -> ~ In b as_ -> chain (upd h b c) p as_ l.
Proof.
  induction 1 as [|a d p as_ l E H IH]; intros Hn; econstructor.
  - unfold upd. destruct (Nat.eqb_spec a b) as [->|]; [destruct Hn; left; reflexivity|exact E].
  - apply IH. intros Hi. apply Hn. right. exact Hi.
Qed.
Lemma chain_alloc h p as_ l a : chain h p as_ l -> In a as_ -> h a <> None.
Proof.
  induction 1 as [|b d p as_ l E H IH]; intros Hi; [destruct Hi|].
  destruct Hi as [->|Hi]; [rewrite E; discriminate|auto].
Qed.
Lemma chain_len h p as_ l : chain h p as_ l -> length as_ = length l.
Proof. induction 1; cbn; lia. Qed.

(** the nodes of each variable, disjoint *)
Definition inv (h : heap) (v : nat -> ptr) (c : contents D) (ch : nat -> list nat) : Prop :=
  (forall x, chain h (v x) (ch x) (c x)) /\ (forall x, NoDup (ch x)) /\
  (forall x y a, x <> y -> In a (ch x) -> ~ In a (ch y)).
(** no node is lost *)
Definition owned (h : heap) (ch : nat -> list nat) : Prop :=
  forall a, h a <> None -> exists x, In a (ch x).

Definition setc (ch : nat -> list nat) (x : nat) (l : list nat) : nat -> list nat :=
  fun y => if y =? x then l else ch y.

Ltac split_eq := repeat match goal with
  | |- context [?a =? ?b] => destruct (Nat.eqb_spec a b); subst
  | H : context [?a =? ?b] |- _ => destruct (Nat.eqb_spec a b); subst
  end.

Lemma apart_setc ch x l : (forall x, NoDup (ch x)) -> (forall x y a, x <> y -> In a (ch x) -> ~ In a (ch y)) ->
  NoDup l -> (forall a y, In a l -> y <> x -> ~ In a (ch y)) ->
  (forall y, NoDup (setc ch x l y)) /\ (forall y z a, y <> z -> In a (setc ch x l y) -> ~ In a (setc ch x l z)).
Proof.
  intros I2 I3 Hl Ha. unfold setc. split.
  - intros y. destruct (y =? x); auto.
  - intros y z a Hyz. destruct (Nat.eqb_spec y x) as [Ey|Ny], (Nat.eqb_spec z x) as [Ez|Nz].
    + congruence.
    + intros Hi. apply Ha; auto.
    + intros Hi Hi'. exact (Ha a y Hi' Ny Hi).
    + apply I3. exact Hyz.
Qed.

Lemma inv_front h v c ch x d a : inv h v c ch -> h a = None ->
  inv (upd (upd h a (Some {| n_data := d; n_next := None |})) a (Some {| n_data := d; n_next := v x |}))
      (set_var v x (Some a)) (set_list c x (d :: c x)) (setc ch x (a :: ch x)).
Proof.
  intros (I1 & I2 & I3) Ha.
  assert (N : forall y, ~ In a (ch y)) by (intros y Hy; exact (chain_alloc _ _ _ _ _ (I1 y) Hy Ha)).
  assert (F : forall y, chain (upd (upd h a (Some {| n_data := d; n_next := None |})) a (Some {| n_data := d; n_next := v x |})) (v y) (ch y) (c y)).
  { intros y. apply chain_frame; [apply chain_frame|]; auto. }
  split.
  - intros y. unfold set_var, set_list, setc. destruct (Nat.eqb_spec y x) as [->|]; [|apply F]. econstructor; [|apply F].
    unfold upd. rewrite Nat.eqb_refl. reflexivity.
  - apply apart_setc; auto. { constructor; auto. }
    intros b y [<-|Hb] Hy; [apply N|]. apply (I3 x y b); auto.
Qed.
Lemma owned_front h ch x a c1 c2 : owned h ch -> owned (upd (upd h a c1) a c2) (setc ch x (a :: ch x)).
Proof.
  intros O b Hb. unfold upd in Hb. destruct (Nat.eqb_spec b a) as [Eb|Nb].
  - subst b. exists x. unfold setc. rewrite Nat.eqb_refl. left. reflexivity.
  - destruct (O b Hb) as (y & Hy). exists y. unfold setc. split_eq; [right|]; exact Hy.
Qed.

Lemma walk_last h : forall l p as_ fuel, chain h p as_ l -> l <> [] -> length l <= fuel ->
  exists b d, walk fuel h p = Ok (Some b) /\ h b = Some {| n_data := d; n_next := None |} /\ last as_ 0 = b /\ In b as_
    /\ last l d = d.
Proof.
  induction l as [|d l IH]; intros p as_ fuel H Hn Hf; [congruence|].
  inversion H as [|a d' q as' l' E H']; subst. destruct fuel as [|fuel]; [cbn in Hf; lia|].
  cbn [walk load rbind]. rewrite E. cbn [rbind LList_Model.n_next].
  destruct l as [|d2 l].
  - inversion H'; subst. exists a, d. repeat split; auto. left. reflexivity.
  - destruct (IH q as' fuel H') as (b & d' & Ew & Eb & El & Hi & Hd); [discriminate|cbn in *; lia|].
    assert (Q : ll_empty q = false) by (inversion H'; reflexivity). rewrite Q.
    exists b, d'. split; [exact Ew|]. split; [exact Eb|].
    split; [destruct as'; [destruct Hi|exact El]|]. split; [right; exact Hi|exact Hd].
Qed.
(** appending behind the last node *)
Lemma chain_append h : forall l p as_ b d d2 a, chain h p as_ l -> NoDup as_ -> l <> [] ->
  last as_ 0 = b -> h b = Some {| n_data := d; n_next := None |} -> h a = Some {| n_data := d2; n_next := None |} -> ~ In a as_ ->
  chain (upd h b (Some {| n_data := d; n_next := Some a |})) p (as_ ++ [a]) (l ++ [d2]).
Proof.
  induction l as [|x l IH]; intros p as_ b d d2 a H Hd Hn Hl Hb Ha Hna; [congruence|].
  inversion H as [|k x' q as' l' E H']; subst. inversion Hd as [|? ? K1 K2]; subst.
  destruct l as [|y l].
  - inversion H'; subst. cbn [last] in Hb |- *. rewrite Hb in E. injection E as <-.
    cbn [app]. econstructor; [unfold upd; rewrite Nat.eqb_refl; reflexivity|].
    econstructor; [|constructor]. unfold upd. destruct (Nat.eqb_spec a k) as [->|]; [destruct Hna; left; reflexivity|exact Ha].
  - assert (L : last (k :: as') 0 = last as' 0) by (inversion H'; reflexivity).
    cbn [app]. econstructor.
    + unfold upd. rewrite L. destruct (Nat.eqb_spec k (last as' 0)) as [Ek|]; [|exact E].
      destruct K1. rewrite Ek. inversion H'; subst. 
      match goal with |- In (last ?z 0) _ => rewrite (app_removelast_last 0 (l := z)) at 2 by discriminate end.
      apply in_or_app. right. left. reflexivity.
    + rewrite L. apply IH; auto; [discriminate|rewrite L in Hb; exact Hb|]. intros Hi. apply Hna. right. exact Hi.
Qed.

Context {T : Type}.
Variable malloc : T -> heap -> option nat * T.
Hypothesis malloc_fresh : forall t h a t', malloc t h = (Some a, t') -> h a = None.

Definition sinv (s : @state D T) c ch := inv (s_heap s) (s_var s) c ch.

Lemma put_front_ok s c ch x d : sinv s c ch ->
  exists n s', put_front malloc s x d = Ok (n, s') /\
   ((n = 0 /\ sinv s' c ch /\ s_heap s' = s_heap s /\ s_var s' = s_var s)
    \/ (n = 1 /\ sinv s' (set_list c x (d :: c x)) (setc ch x (match s_var s' x with Some a => a | None => 0 end :: ch x))
        /\ (owned (s_heap s) ch -> owned (s_heap s') (setc ch x (match s_var s' x with Some a => a | None => 0 end :: ch x)))
        /\ (forall y, y <> x -> s_var s' y = s_var s y)
        /\ (forall a nd, s_heap s a = Some nd -> s_heap s' a = Some nd))).
Proof.
  intros I. unfold put_front, get_llist. destruct (malloc (s_malloc s) (s_heap s)) as ([a|] & t) eqn:E.
  - pose proof (malloc_fresh _ _ _ _ E) as Ha. cbn [load s_heap]. unfold upd at 1. rewrite Nat.eqb_refl. cbn [rbind].
    do 2 eexists. split; [reflexivity|]. right. cbn [s_heap s_var LList_Model.n_data].
    assert (V : set_var (s_var s) x (Some a) x = Some a) by (unfold set_var; now rewrite Nat.eqb_refl).
    rewrite V. split; [reflexivity|]. split; [apply inv_front; assumption|].
    split; [apply owned_front|]. split.
    + intros y Hy. unfold set_var. destruct (Nat.eqb_spec y x); congruence.
    + intros b nd Hb. unfold upd. destruct (Nat.eqb_spec b a); [congruence|exact Hb].
  - do 2 eexists. split; [reflexivity|]. left. split; [reflexivity|]. split; [exact I|]. split; reflexivity.
Qed.

Definition sP (P : T -> heap -> Prop) (s : @state D T) := P (s_malloc s) (s_heap s).
Lemma put_front_P s x d P n s' : reliable malloc P -> sP P s -> put_front malloc s x d = Ok (n, s') -> n = 1 /\ sP P s'.
Proof.
  intros (R1 & R2) Hp. unfold put_front, get_llist. destruct (R1 _ _ Hp) as (a & t' & -> & H). cbn [load s_heap].
  unfold upd at 1. rewrite Nat.eqb_refl. cbn [rbind]. intros E. injection E as <- <-. split; [reflexivity|].
  apply R2; [apply H|]. cbn. unfold upd. rewrite Nat.eqb_refl. discriminate.
Qed.
Lemma put_tail_P fuel s x d P n s' : reliable malloc P -> sP P s -> put_tail malloc fuel s x d = Ok (n, s') -> n = 1 /\ sP P s'.
Proof.
  intros R Hp. unfold put_tail. destruct (ll_empty (s_var s x)); [apply put_front_P; assumption|].
  destruct R as (R1 & R2). unfold get_llist. destruct (R1 _ _ Hp) as (a & t' & -> & H). cbn [s_heap s_malloc].
  destruct (walk _ _ _) as [q| | |]; cbn [rbind]; try discriminate.
  destruct q as [b|]; cbn [load]; [|discriminate].
  match goal with |- context [match ?h b with _ => _ end] => destruct (h b) as [c|] eqn:Eb end; cbn [rbind]; [|discriminate].
  match goal with |- context [match ?h a with _ => _ end] => destruct (h a) as [c2|] eqn:Ea end; cbn [rbind]; [|discriminate].
  intros E. injection E as <- <-. split; [reflexivity|]. apply R2; [apply R2; [apply H|]|]; congruence.
Qed.
Lemma get_first_P s x P r s' : reliable malloc P -> sP P s -> get_first s x = Ok (r, s') -> sP P s'.
Proof.
  intros (R1 & R2) Hp. unfold get_first. destruct (ll_empty (s_var s x)); [intros E; injection E as <- <-; exact Hp|].
  destruct (s_var s x) as [a|]; [|discriminate]. cbn [load]. destruct (s_heap s a) eqn:Ea; cbn [rbind]; [|discriminate].
  intros E. injection E as <- <-. apply R2; [exact Hp|congruence].
Qed.

Lemma put_tail_ok s c ch x d fuel : sinv s c ch -> length (c x) <= fuel ->
  exists n s', put_tail malloc fuel s x d = Ok (n, s') /\
   ((n = 0 /\ sinv s' c ch /\ s_heap s' = s_heap s)
    \/ (n = 1 /\ exists a, sinv s' (set_list c x (c x ++ [d])) (setc ch x (ch x ++ [a]))
        /\ (owned (s_heap s) ch -> owned (s_heap s') (setc ch x (ch x ++ [a]))))).
Proof.
  intros I Hf. unfold put_tail. destruct (s_var s x) as [b0|] eqn:Ex; cbn [ll_empty].
  2:{ pose proof (proj1 I x) as Hx. rewrite Ex in Hx. inversion Hx as [E1 E2 E3|]; subst.
      destruct (put_front_ok s c ch x d I) as (n & s' & E & [(H1 & H2 & H3 & _)|(H1 & H2 & H3 & _)]).
      - exists n, s'. split; [exact E|]. left. auto.
      - exists n, s'. split; [exact E|]. right. split; [exact H1|].
        rewrite <- E2 in H2, H3. rewrite <- E3 in H2.
        eexists. split; cbn [app]; [exact H2|exact H3]. }
  unfold get_llist. destruct (malloc (s_malloc s) (s_heap s)) as ([a|] & t) eqn:E.
  2:{ do 2 eexists. split; [reflexivity|]. left. split; [reflexivity|]. split; [exact I|]. reflexivity. }
  pose proof (malloc_fresh _ _ _ _ E) as Ha. cbn [s_heap s_var].
  set (h1 := upd (s_heap s) a (Some {| n_data := d; n_next := None |})).
  destruct I as (I1 & I2 & I3).
  assert (N : forall y, ~ In a (ch y)) by (intros y Hy; exact (chain_alloc _ _ _ _ _ (I1 y) Hy Ha)).
  assert (F : forall y, chain h1 (s_var s y) (ch y) (c y)) by (intros y; apply chain_frame; auto).
  assert (Nx : c x <> []) by (intros K; pose proof (I1 x) as J; rewrite K in J; inversion J; congruence).
  destruct (walk_last h1 (c x) (Some b0) (ch x) fuel) as (b & db & Ew & Eb & El & Hb & _); [rewrite <- Ex; apply F|exact Nx|lia|].
  rewrite Ew. cbn [rbind load]. rewrite Eb. cbn [rbind LList_Model.n_data].
  assert (Hab : a <> b) by (intros ->; exact (N x Hb)).
  assert (Ea : upd h1 b (Some {| n_data := db; n_next := Some a |}) a = Some {| n_data := d; n_next := None |}).
  { unfold upd. destruct (Nat.eqb_spec a b); [congruence|]. unfold h1, upd. now rewrite Nat.eqb_refl. }
  rewrite Ea. cbn [rbind LList_Model.n_data]. do 2 eexists. split; [reflexivity|]. right. split; [reflexivity|].
  exists a. cbn [s_heap s_var].
  set (h2 := upd h1 b (Some {| n_data := db; n_next := Some a |})).
  (* writing the same node again changes nothing *)
  assert (Hsame : forall p as_ l, chain h2 p as_ l -> chain (upd h2 a (Some {| n_data := d; n_next := None |})) p as_ l).
  { intros p as_ l. induction 1 as [|k dk q as_ l Ek H IH]; econstructor; [|exact IH].
    unfold upd at 1. destruct (Nat.eqb_spec k a) as [->|]; [|exact Ek]. unfold h2 in Ek. rewrite Ea in Ek. exact Ek. }
  split.
  - split.
    + intros y. unfold set_list, setc. cbn [s_heap s_var]. destruct (Nat.eqb_spec y x) as [->|Hn].
      * apply Hsame. apply chain_append; auto. unfold h1, upd. now rewrite Nat.eqb_refl.
      * apply Hsame. apply chain_frame; [apply F|]. intros Hi. exact (I3 x y b (not_eq_sym Hn) Hb Hi).
    + apply apart_setc; auto.
      * rewrite <- (rev_involutive (ch x ++ [a])). apply NoDup_rev. rewrite rev_app_distr. cbn. constructor; [|apply NoDup_rev, I2].
        rewrite <- in_rev. apply N.
      * intros k y Hk Hy. apply in_app_or in Hk. destruct Hk as [Hk|[<-|[]]]; [apply (I3 x y k); auto|apply N].
  - intros O k Hk. destruct (Nat.eq_dec k a) as [->|Hka].
    + exists x. unfold setc. rewrite Nat.eqb_refl. apply in_or_app. right. left. reflexivity.
    + assert (exists y, In k (ch y)) as (y & Hy).
      { unfold upd, h2, h1 in Hk. destruct (Nat.eqb_spec k a); [contradiction|].
        unfold upd in Hk. destruct (Nat.eqb_spec k b) as [Ekb|]; [rewrite Ekb; exists x; exact Hb|].
        destruct (Nat.eqb_spec k a); [contradiction|]. apply O. exact Hk. }
      exists y. unfold setc. split_eq; [apply in_or_app; left|]; exact Hy.
Qed.

Lemma get_first_ok s c ch x : sinv s c ch ->
  (c x = [] /\ get_first s x = Ok (0, None, s))
   \/ (exists d l s', c x = d :: l /\ get_first s x = Ok (1, Some d, s') /\
       sinv s' (set_list c x l) (setc ch x (tl (ch x))) /\ (owned (s_heap s) ch -> owned (s_heap s') (setc ch x (tl (ch x))))).
Proof.
  intros (I1 & I2 & I3). unfold get_first. pose proof (I1 x) as H.
  inversion H as [E1 E2 E3|a d p as_ l Ea Hc E1 E2 E3].
  - left. auto.
  - right. cbn [ll_empty load]. rewrite Ea. cbn [rbind]. exists d, l. eexists. split; [reflexivity|]. split; [reflexivity|].
    cbn [s_heap s_var LList_Model.n_next tl].
    assert (Hn : ~ In a as_) by (pose proof (I2 x) as K; rewrite <- E2 in K; inversion K; assumption).
    split.
    + split.
      * intros y. unfold set_var, set_list, setc. cbn [s_heap s_var]. destruct (Nat.eqb_spec y x) as [Hy|Hy]; apply chain_frame; auto.
        intros Hi. apply (I3 x y a (not_eq_sym Hy)); [rewrite <- E2; left; reflexivity|exact Hi].
      * apply apart_setc; auto.
        -- pose proof (I2 x) as K; rewrite <- E2 in K; inversion K; assumption.
        -- intros k y Hk Hy. apply (I3 x y k); auto. rewrite <- E2. right. exact Hk.
    + intros O k Hk. cbn [s_heap] in Hk. unfold upd in Hk. destruct (Nat.eqb_spec k a) as [Eka|Hka]; [congruence|].
      destruct (O k Hk) as (y & Hy). exists y. unfold setc. split_eq; [|exact Hy].
      rewrite <- E2 in Hy. destruct Hy as [->|Hy]; [congruence|exact Hy].
Qed.

Lemma init_ok s c ch x : sinv s c ch -> sinv (ll_init s x) (set_list c x []) (setc ch x []).
Proof.
  intros (I1 & I2 & I3). split.
  - intros y. unfold ll_init, set_var, set_list, setc. cbn [s_heap s_var]. destruct (y =? x); [constructor|apply I1].
  - apply apart_setc; auto. constructor.
Qed.
Lemma init_owned s (c : contents D) ch x : sinv s c ch -> owned (s_heap s) ch -> c x = [] ->
  owned (s_heap (ll_init s x)) (setc ch x []).
Proof.
  intros (I1 & _) O E a Ha. destruct (O a Ha) as (y & Hy). exists y. unfold setc. split_eq; [|exact Hy].
  pose proof (chain_len _ _ _ _ (I1 x)) as L. rewrite E in L. destruct (ch x); [destruct Hy|discriminate].
Qed.

Lemma set_list_same (c : contents D) x : forall y, set_list c x (c x) y = c y.
Proof. intros y. unfold set_list. destruct (Nat.eqb_spec y x); congruence. Qed.
Lemma sinv_ext s c c' ch : (forall x, c x = c' x) -> sinv s c ch -> sinv s c' ch.
Proof.
  intros E (I1 & I2). split; [|exact I2]. intros x. rewrite <- E. apply I1.
Qed.

(** the copy: [f] is a list apart from the nodes of [t] *)
Lemma recur_ok t : forall l p as_ fuel s c ch, chain (s_heap s) p as_ l -> length l <= fuel -> sinv s c ch ->
  exists s' m chm, recur malloc fuel s t p = Ok s' /\ sub m l /\
    sinv s' (set_list c t (m ++ c t)) (setc ch t (chm ++ ch t)) /\
    (owned (s_heap s) ch -> owned (s_heap s') (setc ch t (chm ++ ch t))) /\
    (forall a nd, s_heap s a = Some nd -> s_heap s' a = Some nd) /\
    (forall y, y <> t -> s_var s' y = s_var s y) /\
    (forall P, reliable malloc P -> sP P s -> m = l /\ sP P s').
Proof.
  induction l as [|d l IH]; intros p as_ fuel s c ch H Hf I; inversion H as [|a d' q as' l' Ea H']; subst.
  - exists s, [], []. split; [destruct fuel; reflexivity|]. split; [constructor|].
    split; [apply (sinv_ext s c); [intros x; symmetry; apply set_list_same|]|split; [|auto]].
    + assert (E : forall x, setc ch t ([] ++ ch t) x = ch x) by (intros x; unfold setc; destruct (Nat.eqb_spec x t); subst; reflexivity).
      destruct I as (I1 & I2 & I3). split; [|split]; intros; rewrite ?E in *; auto. apply (I3 x y a); auto.
    + cbn [app]. intros O k Hk. destruct (O k Hk) as (y & Hy). exists y. unfold setc. split_eq; exact Hy.
  - destruct fuel as [|fuel]; [cbn in Hf; lia|]. cbn [recur ll_empty load]. rewrite Ea. cbn [rbind LList_Model.n_next].
    destruct (IH q as' fuel s c ch H') as (s1 & m & chm & E1 & Hm & I1 & O1 & K1 & V1 & Z1); [cbn in Hf; lia|exact I|].
    rewrite E1. cbn [rbind]. rewrite (K1 _ _ Ea). cbn [rbind LList_Model.n_data].
    destruct (put_front_ok s1 _ _ t d I1) as (n & s2 & E2 & [(Hn & I2 & Hh & Hv)|(Hn & I2 & O2 & V2 & K2)]);
      rewrite E2; cbn [rbind snd]; subst n.
    + exists s2, m, chm. split; [reflexivity|]. split; [constructor; exact Hm|]. split; [exact I2|].
      rewrite Hh, Hv. split; [exact O1|]. split; [exact K1|]. split; [exact V1|].
      intros P R Hp. destruct (Z1 P R Hp) as (-> & Hp1). destruct (put_front_P _ _ _ _ _ _ R Hp1 E2) as (K & _). discriminate.
    + exists s2, (d :: m). 
      set (a2 := match s_var s2 t with Some a => a | None => 0 end) in *. exists (a2 :: chm).
      assert (Ec : forall x, set_list (set_list c t (m ++ c t)) t (d :: set_list c t (m ++ c t) t) x = set_list c t ((d :: m) ++ c t) x).
      { intros x. unfold set_list. rewrite Nat.eqb_refl. destruct (x =? t); reflexivity. }
      assert (Ech : forall x, setc (setc ch t (chm ++ ch t)) t (a2 :: setc ch t (chm ++ ch t) t) x = setc ch t ((a2 :: chm) ++ ch t) x).
      { intros x. unfold setc. rewrite Nat.eqb_refl. destruct (x =? t); reflexivity. }
      split; [reflexivity|]. split; [constructor; exact Hm|]. split; [|split; [|split; [|split]]].
      * apply (sinv_ext s2 _ _ _ Ec) in I2. destruct I2 as (J1 & J2 & J3). split; [|split].
        -- intros x. rewrite <- Ech. apply J1.
        -- intros x. rewrite <- Ech. apply J2.
        -- intros x y k. rewrite <- !Ech. apply J3.
      * intros O k Hk. destruct (O2 (O1 O) k Hk) as (y & Hy). exists y. rewrite <- Ech. exact Hy.
      * intros b nd Hb. apply K2, K1, Hb.
      * intros y Hy. rewrite V2, V1 by exact Hy. reflexivity.
      * intros P R Hp. destruct (Z1 P R Hp) as (-> & Hp1). split; [reflexivity|]. apply (put_front_P _ _ _ _ _ _ R Hp1 E2).
Qed.
End P.
