From Coq Require Import List Arith ZArith NArith Bool Lia.
From Verif Require Import Base Text_Model Text_Spec Text_Proofs1 Word_Model Word_Spec.
Import ListNotations.

Lemma strncmp_0 n : forall s t, strncmp s t n = 0%Z <-> firstn n s = firstn n t.
Proof.
  induction n as [|n IH]; intros s t; cbn [strncmp firstn]; [split; reflexivity|].
  destruct s as [|a s], t as [|b t]; try (split; intros; [lia|discriminate]); [split; reflexivity|].
  destruct (N.eqb_spec a b) as [->|Hn].
  - rewrite IH. split; [intros ->; reflexivity|intros E; injection E; auto].
  - split; [destruct (a <? b)%N; lia|intros E; injection E; congruence].
Qed.
Lemma strncmp_range n : forall s t, (strncmp s t n = -1 \/ strncmp s t n = 0 \/ strncmp s t n = 1)%Z.
Proof.
  induction n as [|n IH]; intros [|a s] [|b t]; cbn; auto.
  destruct (a =? b)%N; [apply IH|]. destruct (a <? b)%N; auto.
Qed.
Lemma byte_at_0 s : s <> [] -> byte_at s 0 = Ok (hd 0%N s).
Proof. intros H. destruct s; [congruence|reflexivity]. Qed.
Lemma last_byte_ok s : s <> [] -> last_byte s = Ok (last s 0%N).
Proof.
  intros H. destruct (exists_last H) as (x & b & ->). unfold last_byte, byte_at, cstr.
  rewrite app_length, Nat.add_comm. cbn [length Nat.add].
  rewrite <- app_assoc. cbn [app]. rewrite skipn_app, skipn_all, Nat.sub_diag. cbn. rewrite last_last. reflexivity.
Qed.
Lemma well_formed_holds e s : well_formed e s -> holds (cstr s) s.
Proof.
  intros (cs & -> & Hc). split; [|exists []; reflexivity].
  intros Hi. apply in_concat in Hi. destruct Hi as (c & H1 & H2).
  rewrite Forall_forall in Hc. destruct (Hc c H1) as (l & r & -> & _ & Hb).
  rewrite Forall_forall in Hb. specialize (Hb _ H2). lia.
Qed.
Lemma strcmp_text e s t : well_formed e s -> well_formed e t ->
  exists z, strcmp e (cstr s) (cstr t) = Ok z /\ (z = 0%Z <-> s = t).
Proof.
  intros Hs Ht. pose proof (well_formed_holds e s Hs) as Hs'. pose proof (well_formed_holds e t Ht) as Ht'.
  destruct Hs as (cs & Cs). destruct Ht as (ds & Cd).
  exists (lex ccmp cs ds). unfold strcmp.
  rewrite (strccmp_lex e _ _ s t cs ds) by (assumption || lia). split; [reflexivity|].
  destruct good_chars as (G1 & G2 & G3 & G4). split.
  - intros E. apply G3 in E; auto. destruct Cs as (-> & _), Cd as (-> & _). subst. reflexivity.
  - intros ->. apply G3; auto. destruct Cs as (Es & Fs), Cd as (Ed & Fd).
    apply (chars_inj e); try assumption. congruence.
Qed.

(** the shape of a text *)
Lemma end_test s : s <> [] ->
  ((hd 0 s =? 45)%N && (1 <? length s) = true <-> exists x, end_fragment s x).
Proof.
  intros H. destruct s as [|a s]; [congruence|]. cbn [hd length]. split.
  - intros E. apply andb_true_iff in E. destruct E as (E1 & E2). apply N.eqb_eq in E1. apply Nat.ltb_lt in E2.
    exists s. split; [congruence|]. destruct s; [cbn in E2; lia|discriminate].
  - intros (x & E & Hx). injection E as -> ->. cbn. destruct x; [congruence|reflexivity].
Qed.
Lemma begin_test s : s <> [] -> (hd 0 s =? 45)%N && (1 <? length s) = false ->
  ((last s 0 =? 45)%N && (1 <? length s) = true <-> exists x, begin_fragment s x).
Proof.
  intros H He. assert (He' : forall y, ~ end_fragment s y).
  { intros y Hy. assert (X : exists x, end_fragment s x) by eauto. apply end_test in X; [congruence|exact H]. }
  destruct (exists_last H) as (x & b & E). split.
  - intros E'. apply andb_true_iff in E'. destruct E' as (E1 & E2). apply N.eqb_eq in E1. apply Nat.ltb_lt in E2.
    subst s. rewrite last_last in E1. rewrite app_length in E2. cbn in E2. subst b.
    exists x. split; [reflexivity|split; [|exact He']]. destruct x; [cbn in E2; lia|discriminate].
  - intros (y & Ey & Hy & _). rewrite Ey at 1. rewrite last_last. cbn [N.eqb Pos.eqb].
    rewrite Ey, app_length. cbn [length andb]. apply Nat.ltb_lt. destruct y; [congruence|cbn; lia].
Qed.
Lemma completes_end s x t : end_fragment s x -> (completes s t <-> exists y, t = y ++ x).
Proof.
  intros H. split.
  - intros [(x' & y & (E & _) & ->)|(x' & y & (_ & _ & Hn) & _)].
    + destruct H as (E' & _). rewrite E in E'. injection E' as ->. eauto.
    + destruct (Hn x H).
  - intros (y & ->). left. eauto.
Qed.
Lemma completes_begin s x t : begin_fragment s x -> (completes s t <-> exists y, t = x ++ y).
Proof.
  intros H. split.
  - intros [(x' & y & E & _)|(x' & y & (E & _) & ->)].
    + destruct H as (_ & _ & Hn). destruct (Hn x' E).
    + destruct H as (E' & _). rewrite E in E'. apply app_inj_tail in E'. destruct E' as (-> & _). eauto.
  - intros (y & ->). right. eauto.
Qed.
Lemma suffix_test (x t : list N) k : length t = k + length x ->
  (firstn (length x) x = firstn (length x) (skipn k t) <-> exists y, t = y ++ x).
Proof.
  intros Hl. rewrite firstn_all. rewrite firstn_all2 by (rewrite skipn_length; lia). split.
  - intros E. exists (firstn k t). rewrite E. symmetry. apply firstn_skipn.
  - intros (y & ->). rewrite app_length in Hl. rewrite skipn_app.
    replace (length y) with k by lia. rewrite Nat.sub_diag. cbn.
    rewrite skipn_all2 by lia. reflexivity.
Qed.
Lemma prefix_test (x t : list N) : firstn (length x) t = x <-> exists y, t = x ++ y.
Proof.
  split.
  - intros E. exists (skipn (length x) t). rewrite <- E at 1. symmetry. apply firstn_skipn.
  - intros (y & ->). rewrite firstn_app, Nat.sub_diag, firstn_all. cbn. apply app_nil_r.
Qed.

Lemma it_ok w s : text_is w s -> it w = Ok s.
Proof. unfold it. intros [(-> & ->)|(-> & ->)]; reflexivity. Qed.
Lemma text_unique w s t : text_is w s -> text_is w t -> s = t.
Proof. intros H1 H2. apply it_ok in H1. apply it_ok in H2. congruence. Qed.

Lemma equal_word_text e w1 w2 s t : text_is w1 s -> text_is w2 t -> good_text e s -> good_text e t ->
  exists z, equal_word e (Some w1) (Some w2) = Ok z
    /\ (z = 0%Z <-> same_text (w_frag w1 || w_frag w2) s t).
Proof.
  intros Hs Ht (Ns & Ws) (Nt & Wt). unfold equal_word. rewrite (it_ok _ _ Hs), (it_ok _ _ Ht). cbn [rbind].
  destruct (strcmp_text e s t Ws Wt) as (z & Ez & Hz).
  destruct (w_frag w1 || w_frag w2); cbn [same_text].
  2:{ exists z. split; assumption. }
  rewrite (byte_at_0 s Ns). cbn [rbind].
  destruct ((hd 0 s =? 45)%N && (1 <? length s)) eqn:E1.
  { apply (proj1 (end_test s Ns)) in E1. destruct E1 as (x & Hx).
    assert (Hf : is_fragment s) by (exists x; left; exact Hx).
    assert (V : (same_text true s t <-> exists y, t = y ++ x)).
    { rewrite <- (completes_end s x t Hx). unfold same_text. tauto. }
    cbn [same_text] in V. destruct Hx as (-> & Nx). cbn [length]. rewrite Nat.sub_succ, Nat.sub_0_r.
    destruct (Nat.ltb_spec (length t) (length x)) as [Hl|Hl].
    - exists 1%Z. split; [reflexivity|]. rewrite V. split; [lia|].
      intros (y & ->). rewrite app_length in Hl. lia.
    - eexists. split; [reflexivity|]. rewrite V, strncmp_0. cbn [skipn]. apply suffix_test. lia. }
  rewrite (last_byte_ok s Ns). cbn [rbind].
  destruct ((last s 0 =? 45)%N && (1 <? length s)) eqn:E2.
  { apply (proj1 (begin_test s Ns E1)) in E2. destruct E2 as (x & Hx).
    assert (Hf : is_fragment s) by (exists x; right; exact Hx).
    assert (V : (same_text true s t <-> exists y, t = x ++ y)).
    { rewrite <- (completes_begin s x t Hx). unfold same_text. tauto. }
    cbn [same_text] in V. destruct Hx as (-> & Nx & _). rewrite app_length, Nat.add_sub.
    eexists. split; [reflexivity|]. rewrite V, strncmp_0.
    rewrite firstn_app, Nat.sub_diag, firstn_all. cbn [firstn]. rewrite app_nil_r, <- prefix_test. split; congruence. }
  assert (Hns : ~ is_fragment s).
  { intros (x & [Hx|Hx]).
    - assert (X : exists x, end_fragment s x) by eauto. apply end_test in X; [congruence|exact Ns].
    - assert (X : exists x, begin_fragment s x) by eauto. apply begin_test in X; [congruence|exact Ns|exact E1]. }
  rewrite (byte_at_0 t Nt). cbn [rbind].
  destruct ((hd 0 t =? 45)%N && (1 <? length t)) eqn:E3.
  { apply (proj1 (end_test t Nt)) in E3. destruct E3 as (x & Hx).
    assert (Hf : is_fragment t) by (exists x; left; exact Hx).
    assert (V : (same_text true s t <-> exists y, s = y ++ x)).
    { rewrite <- (completes_end t x s Hx). unfold same_text. tauto. }
    cbn [same_text] in V. destruct Hx as (-> & Nx). cbn [length]. rewrite Nat.sub_succ, Nat.sub_0_r.
    destruct (Nat.ltb_spec (length s) (length x)) as [Hl|Hl].
    - exists (-1)%Z. split; [reflexivity|]. rewrite V. split; [lia|].
      intros (y & ->). rewrite app_length in Hl. lia.
    - eexists. split; [reflexivity|]. rewrite V, strncmp_0. cbn [skipn].
      rewrite <- (suffix_test x s (length s - length x)) by lia. split; congruence. }
  rewrite (last_byte_ok t Nt). cbn [rbind].
  destruct ((last t 0 =? 45)%N && (1 <? length t)) eqn:E4.
  { apply (proj1 (begin_test t Nt E3)) in E4. destruct E4 as (x & Hx).
    assert (Hf : is_fragment t) by (exists x; right; exact Hx).
    assert (V : (same_text true s t <-> exists y, s = x ++ y)).
    { rewrite <- (completes_begin t x s Hx). unfold same_text. tauto. }
    cbn [same_text] in V. destruct Hx as (-> & Nx & _). rewrite app_length, Nat.add_sub.
    eexists. split; [reflexivity|]. rewrite V, strncmp_0.
    rewrite (firstn_app (length x) x), Nat.sub_diag, firstn_all. cbn [firstn]. rewrite app_nil_r. apply prefix_test. }
  assert (Hnt : ~ is_fragment t).
  { intros (x & [Hx|Hx]).
    - assert (X : exists x, end_fragment t x) by eauto. apply end_test in X; [congruence|exact Nt].
    - assert (X : exists x, begin_fragment t x) by eauto. apply begin_test in X; [congruence|exact Nt|exact E3]. }
  exists z. split; [exact Ez|]. rewrite Hz. tauto.
Qed.

Lemma same_text_sym f s t : ~ (f = true /\ is_fragment s /\ is_fragment t) ->
  same_text f s t -> same_text f t s.
Proof.
  destruct f; cbn; [|congruence]. intros H [(A & B)|[(A & B & C)|(A & B & C)]].
  - right. left. tauto.
  - left. tauto.
  - right. right. split; [tauto|split; [tauto|congruence]].
Qed.

Lemma at_wf e : well_formed e [64%N].
Proof. exists [[64%N]]. split; [reflexivity|]. constructor; [|constructor].
  exists 64%N, []. split; [reflexivity|]. split; [|constructor; [lia|constructor]].
  destruct e; cbn; try reflexivity; lia.
Qed.
Lemma is_at_ok e w : well_formed e (w_value w) ->
  exists b, is_at e w = Ok b /\ (b = true <-> null_word w).
Proof.
  intros H. unfold is_at, null_word. destruct (strcmp_text e _ _ H (at_wf e)) as (z & -> & Hz).
  cbn [rbind]. exists (z =? 0)%Z. split; [reflexivity|]. rewrite Z.eqb_eq. exact Hz.
Qed.
