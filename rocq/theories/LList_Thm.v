(** The linked lists behave as sequences that grow at both ends. *)
From Coq Require Import List Arith Bool Lia.
From Verif Require Import Base LList_Model LList_Spec LList_Proofs.
Import ListNotations.

Section Steps.
Context {D T : Type} (malloc : T -> heap D -> option nat * T).
Hypothesis fresh : fresh_only malloc.

Lemma step_ok fuel s c ch o : sinv s c ch -> (forall x, length (c x) <= fuel) ->
  exists r s' c' ch', step malloc fuel s o = Ok (r, s') /\ deque_step c o r c' /\ sinv s' c' ch' /\
    (forall n, (forall x, length (c x) <= n) -> forall x, length (c' x) <= S n) /\
    (owned (s_heap s) ch -> match o with Init x | Copy x _ => s_var s x = None | _ => True end -> owned (s_heap s') ch') /\
    (forall P, reliable malloc P -> sP P s -> sP P s' /\ match o with PutFront _ _ | PutTail _ _ => fst r = 1 | Copy t f => t <> f -> c' t = c f | _ => True end).
Proof.
  intros I Hf.
  assert (L : forall x l n, (forall x, length (c x) <= n) -> length l <= S n -> forall y, length (set_list c x l y) <= S n).
  { intros x l n H Hl y. unfold set_list. destruct (y =? x); [exact Hl|]. specialize (H y). lia. }
  destruct o as [x|x d|x d|x|t f]; cbn [step].
  - do 4 eexists. split; [reflexivity|]. split; [constructor|]. split; [apply init_ok; exact I|].
    split; [intros n Hn; apply L; [exact Hn|cbn; lia]|]. split; [|intros P R Hp; split; [exact Hp|exact Logic.I]]. intros O E. apply (init_owned s c); auto.
    pose proof (proj1 I x) as H. rewrite E in H. inversion H; reflexivity.
  - destruct (put_front_ok malloc fresh s c ch x d I) as (n & s' & E & [(Hn & I' & Hh & Hv)|(Hn & I' & O' & _)]); rewrite E; subst n; cbn [rbind fst snd].
    + do 4 eexists. split; [reflexivity|]. split; [constructor|]. split; [exact I'|]. split; [intros n Hn y; specialize (Hn y); lia|].
      rewrite Hh. split; [auto|]. intros P R Hp. destruct (put_front_P malloc _ _ _ _ _ _ R Hp E). discriminate.
    + do 4 eexists. split; [reflexivity|]. split; [constructor|]. split; [exact I'|].
      split; [intros n Hn; apply L; [exact Hn|cbn; specialize (Hn x); lia]|]. split; [auto|]. intros P R Hp. destruct (put_front_P malloc _ _ _ _ _ _ R Hp E). auto.
  - destruct (put_tail_ok malloc fresh s c ch x d fuel I (Hf x)) as (n & s' & E & [(Hn & I' & Hh)|(Hn & a & I' & O')]); rewrite E; subst n; cbn [rbind fst snd].
    + do 4 eexists. split; [reflexivity|]. split; [constructor|]. split; [exact I'|]. split; [intros n Hn y; specialize (Hn y); lia|].
      rewrite Hh. split; [auto|]. intros P R Hp. destruct (put_tail_P malloc _ _ _ _ _ _ _ R Hp E). discriminate.
    + do 4 eexists. split; [reflexivity|]. split; [constructor|]. split; [exact I'|].
      split; [intros n Hn; apply L; [exact Hn|rewrite app_length; cbn; specialize (Hn x); lia]|]. split; [auto|]. intros P R Hp. destruct (put_tail_P malloc _ _ _ _ _ _ _ R Hp E). auto.
  - destruct (get_first_ok s c ch x I) as [(E0 & E)|(d & l & s' & E0 & E & I' & O')]; rewrite E; cbn [rbind fst snd].
    + do 4 eexists. split; [reflexivity|]. split; [constructor; exact E0|]. split; [exact I|].
      split; [intros n Hn y; specialize (Hn y); lia|]. split; [auto|]. intros P R Hp. auto.
    + do 4 eexists. split; [reflexivity|]. split; [apply ds_get with (l := l); exact E0|]. split; [exact I'|].
      split; [intros n Hn; apply L; [exact Hn|]; specialize (Hn x); rewrite E0 in Hn; cbn in Hn; lia|]. split; [auto|]. intros P R Hp. split; [|exact Logic.I]. exact (get_first_P malloc _ _ _ _ _ R Hp E).
  - unfold ll_copy. destruct (Nat.eq_dec t f) as [->|Hne].
    + assert (E : s_var (ll_init s f) f = None) by (cbn; unfold set_var; now rewrite Nat.eqb_refl). rewrite E.
      replace (recur malloc fuel (ll_init s f) f None) with (Ok (ll_init s f)) by (destruct fuel; reflexivity). cbn [rbind].
      do 4 eexists. split; [reflexivity|]. split; [apply ds_copy_self|]. split; [apply init_ok; exact I|].
      split; [intros n Hn; apply L; [exact Hn|cbn; lia]|]. split; [|intros P R Hp; split; [exact Hp|congruence]]. intros O K. apply (init_owned s c); auto.
      pose proof (proj1 I f) as H. rewrite K in H. inversion H; reflexivity.
    + pose proof (init_ok s c ch t I) as I0.
      assert (Hc : chain (s_heap (ll_init s t)) (s_var (ll_init s t) f) (ch f) (c f)).
      { cbn. unfold set_var. destruct (Nat.eqb_spec f t); [congruence|]. apply (proj1 I). }
      destruct (recur_ok malloc fresh t (c f) _ _ fuel (ll_init s t) _ _ Hc (Hf f) I0) as (s' & m & chm & E & Hm & I' & O' & _ & _ & Z').
      rewrite E. cbn [rbind]. exists (1, None), s', (set_list c t m). eexists. split; [reflexivity|].
      split; [constructor; [exact Hne|exact Hm]|].
      assert (Ec : forall x, set_list (set_list c t []) t (m ++ set_list c t [] t) x = set_list c t m x).
      { intros x. unfold set_list. rewrite Nat.eqb_refl, app_nil_r. destruct (x =? t); reflexivity. }
      split; [apply (sinv_ext _ _ _ _ Ec); exact I'|]. split; [|split].
      * intros n Hn. apply L; [exact Hn|]. assert (length m <= length (c f)) by (clear - Hm; induction Hm; cbn; lia). specialize (Hn f). lia.
      * intros O K. apply O'. apply (init_owned s c); auto. pose proof (proj1 I t) as H. rewrite K in H. inversion H; reflexivity.
      * intros P R Hp. destruct (Z' P R Hp) as (Em & Hp'). split; [exact Hp'|]. intros _. unfold set_list. rewrite Nat.eqb_refl. exact Em.
Qed.

Lemma run_ok fuel : forall os s c ch n, sinv s c ch -> (forall x, length (c x) <= n) -> n + length os <= fuel ->
  exists rs s' c', run malloc fuel s os = Ok (rs, s') /\ deque_run c os rs c' /\ (exists ch', sinv s' c' ch' /\
   (owned (s_heap s) ch -> (forall pre o post r1 s1, os = pre ++ o :: post -> run malloc fuel s pre = Ok (r1, s1) ->
      match o with Init x | Copy x _ => s_var s1 x = None | _ => True end) -> owned (s_heap s') ch')).
Proof.
  induction os as [|o os IH]; intros s c ch n I Hn Hf.
  - exists [], s, c. split; [reflexivity|]. split; [constructor|]. exists ch. auto.
  - cbn [length] in Hf. destruct (step_ok fuel s c ch o I) as (r & s1 & c1 & ch1 & E & Hs & I1 & L1 & O1 & _).
    { intros x. specialize (Hn x). lia. }
    destruct (IH s1 c1 ch1 (S n) I1 (L1 n Hn)) as (rs & s' & c' & E' & Hr & ch' & I' & O'); [lia|].
    exists (r :: rs), s', c'. cbn [run]. rewrite E. cbn [rbind fst snd]. rewrite E'. cbn [rbind fst snd].
    split; [reflexivity|]. split; [econstructor; eassumption|]. exists ch'. split; [exact I'|].
    intros O K. apply O'.
    + apply O1; [exact O|]. apply (K [] o os [] s); reflexivity.
    + intros pre o2 post r1 s2 -> Er. apply (K (o :: pre) o2 post (r :: r1) s2); [reflexivity|].
      cbn [run]. rewrite E. cbn [rbind fst snd]. rewrite Er. reflexivity.
Qed.
End Steps.

Lemma start_inv {D T} (t : T) : sinv (D := D) (start t) (fun _ => []) (fun _ => []).
Proof. split; [|split]; intros; [constructor|constructor|auto]. Qed.

(** Every program on any number of lists, with a malloc that may fail at any time: no operation reads
    released memory or runs on for ever, what the program sees is what the sequences allow, and at the
    end every variable holds its sequence. *)
Theorem C29_lists_are_sequences : forall (D T : Type) (malloc : T -> heap D -> option nat * T) t os fuel,
  fresh_only malloc -> length os <= fuel ->
  exists rs s c, run malloc fuel (start t) os = Ok (rs, s)
    /\ deque_run (fun _ => []) os rs c
    /\ forall x, holds_list (s_heap s) (s_var s x) (c x).
Proof.
  intros D T malloc t os fuel Hf Hl.
  destruct (run_ok malloc Hf fuel os (start t) _ _ 0 (start_inv t)) as (rs & s & c & E & Hr & ch & I & _); [auto|lia|].
  exists rs, s, c. split; [exact E|]. split; [exact Hr|]. intros x. eapply chain_holds, (proj1 I).
Qed.
Print Assumptions C29_lists_are_sequences.

(** While malloc does not fail, adding succeeds and a copy is complete. *)
Theorem C29_with_enough_memory : forall (D T : Type) (malloc : T -> heap D -> option nat * T) P t os o fuel rs s,
  fresh_only malloc -> reliable malloc P -> P t (fun _ => None) -> S (length os) <= fuel ->
  run malloc fuel (start t) os = Ok (rs, s) ->
  exists r s', step malloc fuel s o = Ok (r, s') /\
    match o with
    | PutFront _ _ | PutTail _ _ => fst r = 1
    | Copy t f => t <> f -> forall l, holds_list (s_heap s) (s_var s f) l -> holds_list (s_heap s') (s_var s' t) l
    | _ => True
    end.
Proof.
  intros D T malloc P t os o fuel rs s Hf R H0 Hl E.
  assert (B : forall os s c ch n, sinv s c ch -> sP P s -> (forall x, length (c x) <= n) -> n + length os <= fuel -> forall rs s', run malloc fuel s os = Ok (rs, s') ->
     exists c' ch', sinv s' c' ch' /\ sP P s' /\ forall x, length (c' x) <= n + length os).
  { clear - Hf R. induction os as [|o os IH]; intros s c ch n I Hp Hn Hl rs s' E.
    - injection E as <- <-. exists c, ch. split; [exact I|]. split; [exact Hp|]. intros x. specialize (Hn x). cbn. lia.
    - cbn [length] in Hl. destruct (step_ok malloc Hf fuel s c ch o I) as (r & s1 & c1 & ch1 & E1 & _ & I1 & L1 & _ & P1).
      { intros x. specialize (Hn x). lia. }
      cbn [run] in E. rewrite E1 in E. cbn [rbind fst snd] in E.
      destruct (run malloc fuel s1 os) as [[rs1 s2]| | |] eqn:E2; cbn [rbind fst snd] in E; try discriminate. injection E as <- <-.
      destruct (IH s1 c1 ch1 (S n) I1 (proj1 (P1 P R Hp)) (L1 n Hn)) with (2 := E2) as (c' & ch' & I' & Hp' & L'); [lia|].
      exists c', ch'. split; [exact I'|]. split; [exact Hp'|]. intros x. specialize (L' x). cbn. lia. }
  destruct (B os (start t) _ _ 0 (start_inv t)) with (4 := E) as (c & ch & I & Hp & L); [exact H0|auto|lia|].
  destruct (step_ok malloc Hf fuel s c ch o I) as (r & s' & c' & ch' & E' & Hd & I' & _ & _ & H').
  { intros x. specialize (L x). cbn in L. lia. }
  exists r, s'. split; [exact E'|]. destruct (H' P R Hp) as (_ & H''). clear H'. destruct o as [x|x d|x d|x|t' f]; auto.
  intros Hne l Hlist. specialize (H'' Hne).
  assert (l = c f) as ->.
  { pose proof (chain_holds _ _ _ _ (proj1 I f)) as H2. clear - Hlist H2. revert H2. generalize (c f).
    induction Hlist as [|a d p l E H IH]; intros m Hm; inversion Hm as [|a' d' p' l' E' H']; subst; [reflexivity|].
    rewrite E in E'. injection E' as <- <-. f_equal. apply IH. exact H'. }
  rewrite <- H''. eapply chain_holds, (proj1 I').
Qed.
Print Assumptions C29_with_enough_memory.

(** A program that empties a list before it initialises it or copies over it loses no memory: what is
    allocated at the end is exactly what its lists hold. *)
Inductive node_of {D} (h : heap D) : ptr -> nat -> Prop :=
| no_here a : node_of h (Some a) a
| no_later a c b : h a = Some c -> node_of h (n_next c) b -> node_of h (Some a) b.
Theorem C29_no_leak : forall (D T : Type) (malloc : T -> heap D -> option nat * T) t os fuel rs s,
  fresh_only malloc -> length os <= fuel ->
  (forall pre o post r1 s1, os = pre ++ o :: post -> run malloc fuel (start t) pre = Ok (r1, s1) ->
     match o with Init x | Copy x _ => s_var s1 x = None | _ => True end) ->
  run malloc fuel (start t) os = Ok (rs, s) ->
  forall a, s_heap s a <> None <-> exists x, node_of (s_heap s) (s_var s x) a.
Proof.
  intros D T malloc t os fuel rs s Hf Hl Ht E.
  destruct (run_ok malloc Hf fuel os (start t) _ _ 0 (start_inv t)) as (rs' & s' & c & E' & Hr & ch & I & O); [auto|lia|].
  rewrite E in E'. injection E' as <- <-.
  assert (O' : owned (s_heap s) ch) by (apply O; [intros a Ha; cbn in Ha; congruence|exact Ht]).
  assert (N : forall p as_ l a, chain (s_heap s) p as_ l -> In a as_ <-> node_of (s_heap s) p a).
  { clear. intros p as_ l a. induction 1 as [|b d p as_ l Eb H IH].
    - split; [intros []|intros K; inversion K].
    - split.
      + intros [<-|Hi]; [constructor|]. econstructor; [exact Eb|]. apply IH, Hi.
      + intros K. inversion K as [|b' c a' Ec Hn]; subst; [left; reflexivity|]. rewrite Eb in Ec. injection Ec as <-. right. apply IH, Hn. }
  intros a. split.
  - intros Ha. destruct (O' a Ha) as (x & Hx). exists x. rewrite <- N; [exact Hx|apply (proj1 I)].
  - intros (x & Hx). apply (N _ _ _ a (proj1 I x)) in Hx. exact (chain_alloc _ _ _ _ _ (proj1 I x) Hx).
Qed.
Print Assumptions C29_no_leak.

(** a malloc for the cases: the state is the next address; it fails once it reaches the limit *)
Definition bump (limit : nat) (t : nat) (h : heap nat) : option nat * nat :=
  if (t <? limit) && match h t with None => true | Some _ => false end then (Some t, S t) else (None, t).

Definition seen {D T} (r : res (list (out D) * @state D T)) : option (list (out D)) :=
  match r with Ok (rs, _) => Some rs | _ => None end.
(** whether a memory cell is in use at the end *)
Definition in_use {D T} (r : res (list (out D) * @state D T)) (a : nat) : bool :=
  match r with Ok (_, s) => match s_heap s a with Some _ => true | None => false end | _ => false end.

(** Copying a list over itself empties it and the nodes are lost; so they are when a list is copied
    over another. *)
Theorem C29_copy_over_a_list_refuted :
  (let r := run (bump 10) 10 (start 0) [PutTail 0 7; Copy 0 0; GetFirst 0] in
   seen r = Some [(1, None); (1, None); (0, None)] /\ in_use r 0 = true)
  /\ (let r := run (bump 10) 10 (start 0) [PutTail 0 7; Copy 0 1; GetFirst 0] in
      seen r = Some [(1, None); (1, None); (0, None)] /\ in_use r 0 = true).
Proof. repeat split; vm_compute; reflexivity. Qed.
(** When memory runs out a copy lacks elements and the caller is not told. *)
Theorem C29_copy_reports_failure_refuted :
  seen (run (bump 3) 10 (start 0) [PutTail 0 7; PutTail 0 8; Copy 1 0; GetFirst 1; GetFirst 1])
  = Some [(1, None); (1, None); (1, None); (1, Some 8); (0, None)].
Proof. vm_compute. reflexivity. Qed.

Example C29_case : fresh_only (bump 7) /\
  seen (run (bump 7) 6 (start 0) [PutTail 0 1; PutTail 0 2; PutFront 0 3; Copy 1 0; GetFirst 1; GetFirst 0])
  = Some [(1, None); (1, None); (1, None); (1, None); (1, Some 3); (1, Some 3)].
Proof.
  split; [|vm_compute; reflexivity]. intros t h a t' H. unfold bump in H. destruct (t <? 7); cbn in H; [|discriminate].
  destruct (h t) eqn:E; [discriminate|]. injection H as <- <-. exact E.
Qed.
(** a malloc that does not fail: it returns ever higher addresses *)
Definition bump_on (t : nat) (h : heap nat) : option nat * nat :=
  match h t with None => (Some t, S t) | Some _ => (None, t) end.
Example C29_enough_case :
  fresh_only bump_on /\ reliable bump_on (fun t h => forall a, t <= a -> h a = None) /\
  seen (run bump_on 6 (start 0) [PutTail 0 1; PutTail 0 2; Copy 1 0]) = Some [(1, None); (1, None); (1, None)].
Proof.
  split; [|split; [split|vm_compute; reflexivity]].
  - intros t h a t' H. unfold bump_on in H. destruct (h t) eqn:E; [discriminate|]. injection H as <- <-. exact E.
  - intros t h H. exists t, (S t). unfold bump_on. rewrite (H t) by lia. split; [reflexivity|].
    intros c a Ha. unfold upd. destruct (Nat.eqb_spec a t); [lia|]. apply H. lia.
  - intros t h a c H Ha b Hb. unfold upd. destruct (Nat.eqb_spec b a) as [->|]; [|apply H; exact Hb].
    destruct Ha. apply H. exact Hb.
Qed.
(** a program of the kind that loses no memory *)
Example C29_no_leak_case : forall pre o post r1 s1,
  [PutTail 0 1; PutFront 0 2; Copy 1 0; GetFirst 0] = pre ++ o :: post ->
  run bump_on 6 (start 0) pre = Ok (r1, s1) ->
  match o with Init x | Copy x _ => s_var s1 x = None | _ => True end.
Proof.
  intros pre o post r1 s1 E H.
  destruct pre as [|a [|b [|c [|d pre]]]]; cbn [app] in E; injection E; intros; subst; try exact Logic.I; try discriminate.
  - assert (K2 : match run bump_on 6 (start 0) [PutTail 0 1; PutFront 0 2] with Ok (_, s) => s_var s 1 | _ => Some 9 end = None) by (vm_compute; reflexivity).
    rewrite H in K2. exact K2.
  - destruct pre; discriminate.
Qed.
