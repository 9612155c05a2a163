(** Numbering of the words, and the links as a list of pairs. *)
From Coq Require Import String List ZArith NArith Arith Bool Lia.
From Verif Require Import Base Store_Model Graph_Model Links_Model Links_Spec Links_Proofs Ctm_Model Ctm_Spec.
Import ListNotations.

(** * Numbering *)
Lemma count_up_eq : forall A (l : list A) n, count_up n l = (seq n (length l), n + length l).
Proof.
  induction l as [|x l IH]; intros n; cbn [count_up length seq]; [f_equal; lia|].
  rewrite IH. f_equal. lia.
Qed.
Fixpoint alts_at {A} (n : nat) (l : list (list A)) : list (list nat) :=
  match l with [] => [] | a :: r => seq n (length a) :: alts_at (n + length a) r end.
Lemma count_alts_eq : forall A (l : list (list A)) n, count_alts n l = (alts_at n l, n + length (concat l)).
Proof.
  induction l as [|a l IH]; intros n; cbn [count_alts alts_at concat length]; [f_equal; lia|].
  rewrite count_up_eq, IH, app_length. f_equal. lia.
Qed.
Lemma alts_at_snoc : forall A (l : list (list A)) a n,
  alts_at n (l ++ [a]) = alts_at n l ++ [seq (n + length (concat l)) (length a)].
Proof.
  induction l as [|b l IH]; intros a n; cbn [alts_at app concat length].
  - rewrite Nat.add_0_r. reflexivity.
  - rewrite IH, app_length. do 3 f_equal. f_equal. lia.
Qed.
Lemma alts_at_length : forall A (l : list (list A)) n, length (alts_at n l) = length l.
Proof. induction l; intros; cbn; auto. Qed.
Lemma count_items_cons : forall i r n,
  count_items n (i :: r) = alts_at n (alts_of i) :: count_items (n + length (concat (alts_of i))) r.
Proof. intros. cbn [count_items]. rewrite count_alts_eq. reflexivity. Qed.
Lemma entries_app : forall a b, entries (a ++ b) = entries a ++ entries b.
Proof. intros. unfold entries. rewrite map_app, concat_app, concat_app. reflexivity. Qed.
Lemma entries_cons : forall i b, entries (i :: b) = concat (alts_of i) ++ entries b.
Proof. intros. unfold entries. cbn [map concat]. apply concat_app. Qed.
Lemma count_items_app : forall a b n, count_items n (a ++ b) = count_items n a ++ count_items (n + length (entries a)) b.
Proof.
  induction a as [|i a IH]; intros b n.
  - cbn. rewrite Nat.add_0_r. reflexivity.
  - change ((i :: a) ++ b) with (i :: (a ++ b)). rewrite !count_items_cons, IH, entries_cons, app_length. cbn [app]. do 3 f_equal. lia.
Qed.
Lemma layout_snoc : forall its i, layout (its ++ [i]) = layout its ++ [alts_at (length (entries its)) (alts_of i)].
Proof. intros. unfold layout. rewrite count_items_app, count_items_cons. reflexivity. Qed.
Lemma concat_alts_at : forall A (l : list (list A)) n, concat (alts_at n l) = seq n (length (concat l)).
Proof.
  induction l as [|a l IH]; intros n; [reflexivity|]. cbn [alts_at concat]. rewrite IH, app_length, <- seq_app. reflexivity.
Qed.
Lemma concat_count : forall its n, concat (concat (count_items n its)) = seq n (length (entries its)).
Proof.
  induction its as [|i its IH]; intros n; [reflexivity|]. rewrite count_items_cons. cbn [concat].
  rewrite concat_app, concat_alts_at, IH, entries_cons, app_length, seq_app. reflexivity.
Qed.
Lemma layout_nodup : forall its, NoDup (concat (concat (layout its))).
Proof. intros. unfold layout. rewrite concat_count. apply seq_NoDup. Qed.

(** * Parents *)
Definition ends_group (its : list item) : bool := match rev its with i :: _ => is_group i | [] => false end.
Definition own (done : list item) (i : item) : list nat :=
  match i with Word _ => [if ends_group done then length done - 1 else length done] | Group alts => repeat (length done) (length (concat alts)) end.
Lemma owners_snoc : forall its i k g, owners k g (its ++ [i]) = owners k g its ++
  match i with Word _ => [if (match its with [] => g | _ => ends_group its end) then k + length its - 1 else k + length its]
  | Group alts => repeat (k + length its) (length (concat alts)) end.
Proof.
  induction its as [|j its IH]; intros i k g.
  - destruct i; cbn [app owners length]; rewrite Nat.add_0_r, ?app_nil_r; reflexivity.
  - assert (EG : (match its with [] => is_group j | _ => ends_group its end) = ends_group (j :: its)).
    { destruct its as [|x its]; [reflexivity|]. unfold ends_group. cbn [rev]. destruct (rev its) as [|y r]; reflexivity. }
    replace (k + length (j :: its)) with (S k + length its) by (cbn; lia). rewrite <- EG.
    destruct j as [e|alts]; cbn [app owners is_group]; rewrite IH; [reflexivity|]. rewrite <- app_assoc. reflexivity.
Qed.
Lemma parents_snoc : forall its i, parents (its ++ [i]) = parents its ++ own its i.
Proof. intros. unfold parents, own. rewrite owners_snoc. cbn [Nat.add]. destruct its; reflexivity. Qed.

(** * Links *)
Fixpoint steps (a : list nat) : list (nat * nat) :=
  match a with x :: ((y :: _) as r) => (x, y) :: steps r | _ => [] end.
Definition enter (prev : list nat) (a : list nat) : list (nat * nat) := map (fun p => (p, hd 0 a)) prev ++ steps a.
Definition grp_pairs (prev : list nat) (A : list (list nat)) : list (nat * nat) := concat (map (enter prev) A).
Fixpoint pairs_of (prev : list nat) (L : list (list (list nat))) : list (nat * nat) :=
  match L with [] => [] | A :: r => grp_pairs prev A ++ pairs_of (lasts A) r end.
Definition prevs (prev : list nat) (L : list (list (list nat))) : list nat :=
  match L with [] => prev | _ => lasts (last L []) end.
Lemma prevs_cons : forall A L prev, prevs prev (A :: L) = prevs (lasts A) L.
Proof. intros A [|B L] prev; reflexivity. Qed.
Lemma pairs_of_snoc : forall L A prev, pairs_of prev (L ++ [A]) = pairs_of prev L ++ grp_pairs (prevs prev L) A.
Proof.
  induction L as [|B L IH]; intros A prev; cbn [app pairs_of].
  - rewrite app_nil_r. reflexivity.
  - rewrite IH, prevs_cons, app_assoc. reflexivity.
Qed.
Lemma grp_pairs_snoc : forall A a prev, grp_pairs prev (A ++ [a]) = grp_pairs prev A ++ enter prev a.
Proof. intros. unfold grp_pairs. rewrite map_app, concat_app. cbn. rewrite app_nil_r. reflexivity. Qed.
Lemma steps_snoc : forall a x y, steps ((a ++ [x]) ++ [y]) = steps (a ++ [x]) ++ [(x, y)].
Proof.
  induction a as [|b a IH]; intros x y; [reflexivity|]. destruct a as [|c a]; [reflexivity|].
  cbn [app steps]. f_equal. apply IH.
Qed.
Lemma seq_last : forall n k, last (seq n (S k)) 0 = n + k.
Proof.
  intros. replace (S k) with (k + 1) by lia. rewrite seq_app. cbn [seq]. rewrite last_last. reflexivity.
Qed.
Lemma seq_snoc : forall n k, seq n (S k) = seq n k ++ [n + k].
Proof. intros. replace (S k) with (k + 1) by lia. rewrite seq_app. reflexivity. Qed.
Lemma steps_seq : forall n k, steps (seq n (S (S k))) = steps (seq n (S k)) ++ [(n + k, S (n + k))].
Proof. intros. rewrite (seq_snoc n (S k)), (seq_snoc n k), steps_snoc. do 3 f_equal. lia. Qed.
Lemma enter_seq : forall prev n k, enter prev (seq n (S (S k))) = enter prev (seq n (S k)) ++ [(n + k, S (n + k))].
Proof. intros. unfold enter. rewrite steps_seq, app_assoc. reflexivity. Qed.
Lemma enter_one : forall prev n, enter prev (seq n 1) = map (fun p => (p, n)) prev.
Proof. intros. unfold enter. cbn. apply app_nil_r. Qed.

Definition linkp (h : links) (p : nat * nat) : links := link h (fst p) (snd p).
Definition linked (ps : list (nat * nat)) : links := fold_left linkp ps no_links.
Lemma linked_app : forall a b, linked (a ++ b) = fold_left linkp b (linked a).
Proof. intros. unfold linked. apply fold_left_app. Qed.
Lemma linked_snoc : forall a x y, linked (a ++ [(x, y)]) = link (linked a) x y.
Proof. intros. rewrite linked_app. reflexivity. Qed.
Lemma link_fold : forall prev t h, fold_left (fun h l => link h l t) prev h = fold_left linkp (map (fun p => (p, t)) prev) h.
Proof. induction prev as [|p prev IH]; intros; cbn; auto. Qed.

Lemma linked_nxt : forall ps x, nxt (linked ps) x = map snd (filter (fun p => Nat.eqb (fst p) x) ps).
Proof.
  intros ps x. induction ps as [|[a b] ps IH] using rev_ind; [reflexivity|].
  rewrite linked_snoc, filter_app, map_app, <- IH. unfold link, add_prec, add_next. cbn [nxt filter map fst snd]. unfold upd.
  rewrite (Nat.eqb_sym x a). destruct (Nat.eqb_spec a x) as [->|]; cbn [map snd]; [reflexivity|]. rewrite app_nil_r. reflexivity.
Qed.
Lemma linked_prc : forall ps y, prc (linked ps) y = map fst (filter (fun p => Nat.eqb (snd p) y) ps).
Proof.
  intros ps y. induction ps as [|[a b] ps IH] using rev_ind; [reflexivity|].
  rewrite linked_snoc, filter_app, map_app, <- IH. unfold link, add_prec, add_next. cbn [prc filter map fst snd]. unfold upd.
  rewrite (Nat.eqb_sym y b). destruct (Nat.eqb_spec b y) as [->|]; cbn [map fst]; [reflexivity|]. rewrite app_nil_r. reflexivity.
Qed.
Lemma linked_edge : forall ps x y, edge (linked ps) x y <-> In (x, y) ps.
Proof.
  intros. unfold edge. rewrite linked_nxt, in_map_iff. split.
  - intros ([a b] & E & Hi). cbn in E. subst b. apply filter_In in Hi. destruct Hi as [Hi E]. apply Nat.eqb_eq in E. cbn in E. subst. exact Hi.
  - intros Hi. exists (x, y). split; [reflexivity|]. apply filter_In. split; [exact Hi|]. apply Nat.eqb_refl.
Qed.
Lemma linked_mutual : forall ps, mutual (linked ps).
Proof.
  intros ps. induction ps as [|[a b] ps IH] using rev_ind.
  - intros x y. reflexivity.
  - rewrite linked_snoc. apply mutual_link2. exact IH.
Qed.
Lemma linked_nodup : forall ps x, NoDup ps -> NoDup (nxt (linked ps) x) /\ NoDup (prc (linked ps) x).
Proof.
  intros ps x H. rewrite linked_nxt, linked_prc. induction H as [|[a b] ps Hn Hd [IH1 IH2]]; [split; constructor|].
  cbn [filter fst snd]. split.
  - destruct (Nat.eqb_spec a x) as [->|]; cbn [map snd]; [|exact IH1]. constructor; [|exact IH1].
    intros Hi. apply Hn. apply linked_edge. unfold edge. rewrite linked_nxt. exact Hi.
  - destruct (Nat.eqb_spec b x) as [->|]; cbn [map fst]; [|exact IH2]. constructor; [|exact IH2].
    intros Hi. apply Hn. apply in_map_iff in Hi. destruct Hi as ([a' b'] & E & Hi). cbn in E. subst a'.
    apply filter_In in Hi. destruct Hi as [Hi E]. apply Nat.eqb_eq in E. cbn in E. subst. exact Hi.
Qed.

(** * The pairs of a file *)
Lemma steps_in : forall a x y, In (x, y) (steps a) <-> exists l1 l2, a = l1 ++ x :: y :: l2.
Proof.
  induction a as [|b a IH]; intros x y.
  - split; [intros []|]. intros (l1 & l2 & E). destruct l1; discriminate.
  - destruct a as [|c a].
    + split; [intros []|]. intros (l1 & l2 & E). destruct l1 as [|? [|? ?]]; discriminate.
    + cbn [steps In]. rewrite IH. split.
      * intros [E|(l1 & l2 & E)].
        -- injection E as -> ->. exists [], a. reflexivity.
        -- exists (b :: l1), l2. rewrite E. reflexivity.
      * intros (l1 & l2 & E). destruct l1 as [|d l1].
        -- injection E as -> -> ->. left. reflexivity.
        -- injection E as -> E. right. exists l1, l2. exact E.
Qed.
Lemma grp_pairs_in : forall prev A x y,
  In (x, y) (grp_pairs prev A) <-> (In x prev /\ In y (heads A)) \/ exists a l1 l2, In a A /\ a = l1 ++ x :: y :: l2.
Proof.
  intros prev A x y. unfold grp_pairs. rewrite in_concat. split.
  - intros (ps & Hp & Hi). apply in_map_iff in Hp. destruct Hp as (a & <- & Ha). unfold enter in Hi. apply in_app_iff in Hi.
    destruct Hi as [Hi|Hi].
    + apply in_map_iff in Hi. destruct Hi as (p & E & Hp). injection E as -> <-. left. split; [exact Hp|]. apply in_map_iff. exists a. auto.
    + apply steps_in in Hi. destruct Hi as (l1 & l2 & E). right. exists a, l1, l2. auto.
  - intros [[Hx Hy]|(a & l1 & l2 & Ha & E)].
    + unfold heads in Hy. apply in_map_iff in Hy. destruct Hy as (a & <- & Ha). exists (enter prev a). split; [apply in_map; exact Ha|].
      apply in_app_iff. left. apply in_map_iff. exists x. auto.
    + exists (enter prev a). split; [apply in_map; exact Ha|]. apply in_app_iff. right. apply steps_in. eauto.
Qed.
Lemma pairs_in : forall L prev x y, In (x, y) (pairs_of prev L) <->
  (exists A r, L = A :: r /\ In x prev /\ In y (heads A)) \/ comes_after L x y.
Proof.
  induction L as [|A L IH]; intros prev x y; cbn [pairs_of].
  - split; [intros []|]. intros [(A & r & E & _)|[(alts & a & l1 & l2 & [] & _)|(L1 & A & B & L2 & E & _)]]; [discriminate|].
    destruct L1; discriminate.
  - rewrite in_app_iff, grp_pairs_in, IH. split.
    + intros [[[Hx Hy]|(a & l1 & l2 & Ha & E)]|[(B & r & -> & Hx & Hy)|[(alts & a & l1 & l2 & H1 & H2 & H3)|(L1 & B & C & L2 & E & Hx & Hy)]]].
      * left. exists A, L. auto.
      * right. left. exists A, a, l1, l2. repeat split; auto. left. reflexivity.
      * right. right. exists [], A, B, r. auto.
      * right. left. exists alts, a, l1, l2. repeat split; auto. right. exact H1.
      * right. right. exists (A :: L1), B, C, L2. rewrite E. auto.
    + intros [(A' & r & E & Hx & Hy)|[(alts & a & l1 & l2 & [->|H1] & H2 & H3)|(L1 & B & C & L2 & E & Hx & Hy)]].
      * injection E as <- <-. left. left. auto.
      * left. right. exists a, l1, l2. auto.
      * right. right. left. exists alts, a, l1, l2. auto.
      * destruct L1 as [|D L1].
        -- injection E as -> ->. right. left. exists C, L2. auto.
        -- injection E as -> E. right. right. right. exists L1, B, C, L2. auto.
Qed.

Lemma steps_snd : forall a x y, In (x, y) (steps a) -> In y (tl a).
Proof.
  intros a x y H. apply steps_in in H. destruct H as (l1 & l2 & ->). destruct l1; cbn; [left; reflexivity|].
  apply in_app_iff. right. right. left. reflexivity.
Qed.
Lemma steps_nodup : forall a, NoDup a -> NoDup (steps a).
Proof.
  induction a as [|b a IH]; intros H; [constructor|]. destruct a as [|c a]; [constructor|].
  inversion H as [|? ? Hn Hd]; subst. change (steps (b :: c :: a)) with ((b, c) :: steps (c :: a)). constructor; [|apply IH; exact Hd].
  intros Hi. apply steps_in in Hi. destruct Hi as (l1 & l2 & E). apply Hn. rewrite E. apply in_app_iff. right. left. reflexivity.
Qed.
Lemma nodup_app : forall A (l1 l2 : list A), NoDup l1 -> NoDup l2 -> (forall x, In x l1 -> ~ In x l2) -> NoDup (l1 ++ l2).
Proof.
  induction l1 as [|a l1 IH]; intros l2 H1 H2 H; [exact H2|]. inversion H1; subst. cbn. constructor.
  - rewrite in_app_iff. intros [Hi|Hi]; [auto|]. apply (H a); [left; reflexivity|exact Hi].
  - apply IH; auto. intros x Hx. apply H. right. exact Hx.
Qed.
Lemma nodup_split : forall A (l1 l2 : list A), NoDup (l1 ++ l2) -> NoDup l1 /\ NoDup l2 /\ forall x, In x l1 -> ~ In x l2.
Proof.
  induction l1 as [|a l1 IH]; intros l2 H; [repeat split; [constructor|exact H|intros x []]|].
  inversion H as [|? ? Hn Hd]; subst. destruct (IH _ Hd) as (H1 & H2 & H3). rewrite in_app_iff in Hn. repeat split; auto.
  - constructor; tauto.
  - intros x [<-|Hx]; [tauto|auto].
Qed.
Lemma nodup_map_inj : forall A B (f : A -> B) l, (forall x y, f x = f y -> x = y) -> NoDup l -> NoDup (map f l).
Proof.
  intros A B f l Hf H. induction H as [|a l Hn Hd IH]; cbn; constructor; auto.
  rewrite in_map_iff. intros (x & E & Hx). apply Hf in E. subst. auto.
Qed.
Lemma enter_snd : forall prev a x y, a <> [] -> In (x, y) (enter prev a) -> In y a.
Proof.
  intros prev a x y Ha H. unfold enter in H. apply in_app_iff in H. destruct a as [|b a]; [congruence|]. destruct H as [H|H].
  - apply in_map_iff in H. destruct H as (p & E & _). injection E as _ <-. left. reflexivity.
  - apply steps_snd in H. right. exact H.
Qed.
Lemma enter_nodup : forall prev a, a <> [] -> NoDup prev -> NoDup a -> NoDup (enter prev a).
Proof.
  intros prev a Ha Hp Hd. apply nodup_app; [|apply steps_nodup; exact Hd|].
  - apply nodup_map_inj; [|exact Hp]. intros x y E. injection E as ->. reflexivity.
  - intros [x y] H1 H2. apply in_map_iff in H1. destruct H1 as (p & E & _). injection E as -> <-.
    apply steps_snd in H2. destruct a as [|b a]; [congruence|]. cbn in H2. inversion Hd; subst. auto.
Qed.
Lemma grp_nodup : forall A prev, Forall (fun a => a <> []) A -> NoDup prev -> NoDup (concat A) -> NoDup (grp_pairs prev A).
Proof.
  induction A as [|a A IH]; intros prev Hne Hp Hd; [constructor|]. inversion Hne; subst. cbn [concat] in Hd.
  apply nodup_split in Hd. destruct Hd as (D1 & D2 & D3).
  change (grp_pairs prev (a :: A)) with (enter prev a ++ grp_pairs prev A). apply nodup_app; [apply enter_nodup; auto|apply IH; auto|].
  intros [x y] H1' H2'. apply enter_snd in H1'; [|assumption]. apply (D3 y H1').
  unfold grp_pairs in H2'. apply in_concat in H2'. destruct H2' as (ps & Hps & Hi). apply in_map_iff in Hps. destruct Hps as (b & <- & Hb).
  apply in_concat. exists b. split; [exact Hb|]. eapply enter_snd; [|exact Hi]. rewrite Forall_forall in H2. auto.
Qed.
Lemma last_in : forall (a : list nat) d, a <> [] -> In (last a d) a.
Proof. induction a as [|x a IH]; intros d H; [congruence|]. destruct a as [|y a]; [left; reflexivity|]. right. apply IH. discriminate. Qed.
Lemma lasts_nodup : forall A, Forall (fun a => a <> []) A -> NoDup (concat A) -> NoDup (lasts A).
Proof.
  induction A as [|a A IH]; intros Hne Hd; [constructor|]. inversion Hne; subst. cbn [concat] in Hd.
  apply nodup_split in Hd. destruct Hd as (D1 & D2 & D3). cbn. constructor; [|apply IH; auto].
  intros Hi. apply in_map_iff in Hi. destruct Hi as (b & E & Hb). apply (D3 (last a 0)); [apply last_in; assumption|].
  rewrite <- E. apply in_concat. exists b. split; [exact Hb|]. apply last_in. rewrite Forall_forall in H2. auto.
Qed.
Lemma pairs_nodup : forall L prev, Forall (Forall (fun a => a <> [])) L -> NoDup prev -> NoDup (concat (concat L)) -> NoDup (pairs_of prev L).
Proof.
  induction L as [|A L IH]; intros prev Hne Hp Hd; [constructor|]. inversion Hne; subst. cbn [concat] in Hd. rewrite concat_app in Hd.
  apply nodup_split in Hd. destruct Hd as (D1 & D2 & D3). cbn [pairs_of].
  apply nodup_app; [apply grp_nodup; auto|apply IH; auto; apply lasts_nodup; auto|].
  assert (Hg : forall A' pr x y, Forall (fun a => a <> []) A' -> In (x, y) (grp_pairs pr A') -> In y (concat A')).
  { intros A' pr x y HA Hi. unfold grp_pairs in Hi. apply in_concat in Hi. destruct Hi as (ps & Hps & Hi).
    apply in_map_iff in Hps. destruct Hps as (b & <- & Hb). apply in_concat. exists b. split; [exact Hb|].
    eapply enter_snd; [|exact Hi]. rewrite Forall_forall in HA. auto. }
  assert (Hq : forall L' pr x y, Forall (Forall (fun a => a <> [])) L' -> In (x, y) (pairs_of pr L') -> In y (concat (concat L'))).
  { induction L' as [|B L' IHL]; intros pr x y HL Hi; [destruct Hi|]. inversion HL; subst. cbn [pairs_of] in Hi. cbn [concat].
    rewrite concat_app. apply in_app_iff. apply in_app_iff in Hi. destruct Hi as [Hi|Hi]; [left; eauto|right; eauto]. }
  intros [x y] Ha Hb. apply (D3 y); eauto.
Qed.
