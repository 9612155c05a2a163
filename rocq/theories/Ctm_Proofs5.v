(** The paths through the tokens of a file. *)
From Coq Require Import String List ZArith NArith Arith Bool Lia.
From Verif Require Import Base Store_Model Graph_Model Links_Model Links_Spec Ctm_Model Ctm_Spec Ctm_Proofs1.
Import ListNotations.

Lemma split_unique : forall A (f : A -> list nat) L1 a L2 L1' a' L2' x, L1 ++ a :: L2 = L1' ++ a' :: L2' ->
  NoDup (concat (map f (L1 ++ a :: L2))) -> In x (f a) -> In x (f a') -> L1 = L1' /\ a = a' /\ L2 = L2'.
Proof.
  induction L1 as [|b L1 IH]; intros a L2 L1' a' L2' x E Hd H1 H2; destruct L1' as [|b' L1']; cbn [app] in E.
  - injection E as -> ->. auto.
  - exfalso. injection E as -> ->. cbn [app map concat] in Hd. apply nodup_split in Hd. destruct Hd as (_ & _ & Hd).
    apply (Hd x H1). rewrite map_app, concat_app. apply in_app_iff. right. cbn [map concat]. apply in_app_iff. left. exact H2.
  - exfalso. injection E as -> <-. cbn [app map concat] in Hd. apply nodup_split in Hd. destruct Hd as (_ & _ & Hd).
    apply (Hd x H2). rewrite map_app, concat_app. apply in_app_iff. right. cbn [map concat]. apply in_app_iff. left. exact H1.
  - injection E as -> E. cbn [app map concat] in Hd. apply nodup_split in Hd. destruct Hd as (_ & Hd & _).
    destruct (IH _ _ _ _ _ _ E Hd H1 H2) as (-> & -> & ->). auto.
Qed.
Lemma point_unique : forall (l1 l2 l1' l2' : list nat) x, NoDup (l1 ++ x :: l2) -> l1 ++ x :: l2 = l1' ++ x :: l2' -> l1 = l1' /\ l2 = l2'.
Proof.
  intros l1 l2 l1' l2' x Hd E. destruct (split_unique nat (fun n => [n]) l1 x l2 l1' x l2' x E) as (? & _ & ?); cbn; auto.
  rewrite <- flat_map_concat_map. replace (flat_map (fun n => [n]) (l1 ++ x :: l2)) with (l1 ++ x :: l2); [exact Hd|].
  generalize (l1 ++ x :: l2). induction l as [|y l IH]; [reflexivity|]. cbn. f_equal. exact IH.
Qed.

Lemma concat_concat : forall (L : list (list (list nat))), concat (concat L) = concat (map (@concat nat) L).
Proof. induction L as [|A L IH]; [reflexivity|]. cbn. rewrite concat_app, IH. reflexivity. Qed.
Lemma last_cons : forall (l : list nat) a d, last (a :: l) d = last l a.
Proof. intros [|b l] a d; [reflexivity|]. change (last (a :: b :: l) d) with (last (b :: l) d). revert b. induction l as [|c l IH]; intros b; [reflexivity|]. apply IH. Qed.
Lemma last_app_cons : forall t y (m : list nat) d, last (t ++ y :: m) d = last m y.
Proof. induction t as [|q t IH]; intros y m d; cbn [app]; rewrite last_cons; [reflexivity|apply IH]. Qed.

Section Paths.
Variable L : list (list (list nat)).
Hypothesis Hne : Forall (Forall (fun a => a <> [])) L.
Hypothesis Hd : NoDup (concat (concat L)).

Lemma Hdm : NoDup (concat (map (@concat nat) L)).
Proof. rewrite <- concat_concat. exact Hd. Qed.
Lemma item_unique : forall L1 A L2 L1' A' L2' x, L = L1 ++ A :: L2 -> L = L1' ++ A' :: L2' -> In x (concat A) -> In x (concat A') ->
  L1 = L1' /\ A = A' /\ L2 = L2'.
Proof. intros L1 A L2 L1' A' L2' x E E' H1 H2. eapply split_unique with (f := @concat nat); eauto; [congruence|]. rewrite <- E. apply Hdm. Qed.
Lemma item_nodup : forall A, In A L -> NoDup (concat A).
Proof.
  intros A H. apply in_split in H. destruct H as (L1 & L2 & E). pose proof Hdm as D. rewrite E, map_app, concat_app in D. cbn in D.
  apply nodup_split in D. destruct D as (_ & D & _). apply nodup_split in D. tauto.
Qed.
(** the place of a number in an item *)
Lemma place_unique : forall A a a' l1 l2 l1' l2' x, In A L -> In a A -> In a' A -> a = l1 ++ x :: l2 -> a' = l1' ++ x :: l2' ->
  a = a' /\ l1 = l1' /\ l2 = l2'.
Proof.
  intros A a a' l1 l2 l1' l2' x HA Ha Ha' E E'. apply item_nodup in HA.
  apply in_split in Ha. destruct Ha as (P1 & P2 & EA). apply in_split in Ha'. destruct Ha' as (P1' & P2' & EA').
  destruct (split_unique _ (fun l => l) P1 a P2 P1' a' P2' x) as (-> & Eaa & ->).
  - congruence.
  - rewrite map_id, <- EA. exact HA.
  - rewrite E. apply in_app_iff. right. left. reflexivity.
  - rewrite E'. apply in_app_iff. right. left. reflexivity.
  - split; [exact Eaa|]. apply point_unique with x; [|congruence]. rewrite EA, concat_app in HA. cbn in HA.
    apply nodup_split in HA. destruct HA as (_ & HA & _). apply nodup_split in HA. rewrite <- E. tauto.
Qed.
Lemma last_split : forall (a : list nat), a <> [] -> a = removelast a ++ [last a 0].
Proof. intros. apply app_removelast_last. exact H. Qed.
Lemma ne_alt : forall A a, In A L -> In a A -> a <> [].
Proof. intros A a HA Ha. rewrite Forall_forall in Hne. specialize (Hne A HA). rewrite Forall_forall in Hne. auto. Qed.

Variable h : links.
Hypothesis He : forall x y, edge h x y <-> comes_after L x y.

Lemma in_alt : forall (A : list (list nat)) a x l1 l2, In a A -> a = l1 ++ x :: l2 -> In x (concat A).
Proof. intros A a x l1 l2 Ha ->. apply in_concat. eexists. split; [exact Ha|]. apply in_app_iff. right. left. reflexivity. Qed.

(** A walk from inside an alternative goes to its end first. *)
Lemma walk_alt : forall l2 A L1 L' a0 l1 x l, L = L1 ++ A :: L' -> In a0 A -> a0 = l1 ++ x :: l2 -> walk h x l ->
  In (last l x) (lasts (last L [])) ->
  exists m, l = l2 ++ m /\ ((m = [] /\ L' = []) \/ exists y m' B L'', L' = B :: L'' /\ m = y :: m' /\ In y (heads B) /\ walk h y m' /\ In (last m' y) (lasts (last L []))).
Proof.
  induction l2 as [|z l2 IH]; intros A L1 L' a0 l1 x l EL Ha E HW HEnd.
  - assert (HA : In A L) by (rewrite EL; apply in_app_iff; right; left; reflexivity).
    exists l. split; [reflexivity|]. destruct l as [|y m'].
    + left. split; [reflexivity|]. destruct L' as [|B L'] using rev_ind; [reflexivity|]. exfalso. cbn [last] in HEnd.
      assert (EL2 : L = (L1 ++ A :: L') ++ B :: []) by (rewrite EL, <- app_assoc; reflexivity).
      rewrite EL2, last_last in HEnd. unfold lasts in HEnd. apply in_map_iff in HEnd. destruct HEnd as (b & Eb & Hb).
      assert (HB : In B L) by (rewrite EL2; apply in_app_iff; right; left; reflexivity).
      pose proof (last_split b (ne_alt _ _ HB Hb)) as Sb. rewrite Eb in Sb.
      destruct (item_unique L1 A (L' ++ [B]) (L1 ++ A :: L') B [] x EL EL2) as (_ & _ & E3); [eapply in_alt; eauto|eapply in_alt; eauto|].
      destruct L'; discriminate.
    + right. cbn [walk] in HW. destruct HW as [HE HW]. apply He in HE. destruct HE as [(alts & b & u1 & u2 & H1 & H2 & H3)|(K1 & C & B & K2 & EK & Hx & Hy)].
      * exfalso. apply in_split in H1. destruct H1 as (M1 & M2 & EM).
        destruct (item_unique L1 A L' M1 alts M2 x EL EM) as (_ & <- & _); [eapply in_alt; eauto|eapply in_alt; eauto|].
        destruct (place_unique A a0 b l1 [] u1 (y :: u2) x HA Ha H2 E H3) as (_ & _ & E4). discriminate.
      * assert (HC : In C L) by (rewrite EK; apply in_app_iff; right; left; reflexivity).
        unfold lasts in Hx. apply in_map_iff in Hx. destruct Hx as (b & Eb & Hb). pose proof (last_split b (ne_alt _ _ HC Hb)) as Sb. rewrite Eb in Sb.
        destruct (item_unique L1 A L' K1 C (B :: K2) x EL EK) as (_ & _ & ->); [eapply in_alt; eauto|eapply in_alt; eauto|].
        exists y, m', B, K2. split; [reflexivity|]. split; [reflexivity|]. split; [exact Hy|]. split; [exact HW|].
        rewrite last_cons in HEnd. exact HEnd.
  - assert (HA : In A L) by (rewrite EL; apply in_app_iff; right; left; reflexivity).
    destruct l as [|y m].
    + exfalso. cbn [last] in HEnd. unfold lasts in HEnd. apply in_map_iff in HEnd. destruct HEnd as (b & Eb & Hb).
      destruct (@exists_last _ L) as (L0 & B & EB); [rewrite EL; destruct L1; discriminate|]. rewrite EB, last_last in Hb.
      assert (HB : In B L) by (rewrite EB; apply in_app_iff; right; left; reflexivity).
      pose proof (last_split b (ne_alt _ _ HB Hb)) as Sb. rewrite Eb in Sb.
      destruct (item_unique L1 A L' L0 B [] x EL EB) as (_ & <- & _); [eapply in_alt; eauto|eapply in_alt; eauto|].
      destruct (place_unique A a0 b l1 (z :: l2) (removelast b) [] x HA Ha Hb E Sb) as (_ & _ & E4). discriminate.
    + cbn [walk] in HW. destruct HW as [HE HW]. apply He in HE. destruct HE as [(alts & b & u1 & u2 & H1 & H2 & H3)|(K1 & C & B & K2 & EK & Hx & Hy)].
      * apply in_split in H1. destruct H1 as (M1 & M2 & EM).
        destruct (item_unique L1 A L' M1 alts M2 x EL EM) as (_ & <- & _); [eapply in_alt; eauto|eapply in_alt; eauto|].
        destruct (place_unique A a0 b l1 (z :: l2) u1 (y :: u2) x HA Ha H2 E H3) as (_ & _ & E4). injection E4 as <- _.
        destruct (IH A L1 L' a0 (l1 ++ [x]) z m EL Ha) as (m2 & -> & Hm); [rewrite E, <- app_assoc; reflexivity|exact HW| |].
        -- rewrite last_cons in HEnd. exact HEnd.
        -- exists m2. split; [reflexivity|exact Hm].
      * exfalso. assert (HC : In C L) by (rewrite EK; apply in_app_iff; right; left; reflexivity).
        unfold lasts in Hx. apply in_map_iff in Hx. destruct Hx as (b & Eb & Hb). pose proof (last_split b (ne_alt _ _ HC Hb)) as Sb. rewrite Eb in Sb.
        destruct (item_unique L1 A L' K1 C (B :: K2) x EL EK) as (_ & <- & _); [eapply in_alt; eauto|eapply in_alt; eauto|].
        destruct (place_unique A a0 b l1 (z :: l2) (removelast b) [] x HA Ha Hb E Sb) as (_ & _ & E4). discriminate.
Qed.

Lemma head_split : forall (a : list nat), a <> [] -> a = hd 0 a :: tl a.
Proof. intros [|x a] H; [congruence|reflexivity]. Qed.

Lemma walk_picks : forall L2 L1 A a l, L = L1 ++ A :: L2 -> In a (heads A) -> walk h a l -> In (last l a) (lasts (last L [])) ->
  exists picks, Forall2 (fun p A => In p A) picks (A :: L2) /\ a :: l = concat picks.
Proof.
  induction L2 as [|B L2 IH]; intros L1 A a l EL Ha HW HEnd;
    assert (HA : In A L) by (rewrite EL; apply in_app_iff; right; left; reflexivity);
    unfold heads in Ha; apply in_map_iff in Ha; destruct Ha as (a0 & Eh & Ha0);
    pose proof (head_split a0 (ne_alt _ _ HA Ha0)) as S0; rewrite Eh in S0;
    destruct (walk_alt (tl a0) A L1 _ a0 [] a l EL Ha0 S0 HW HEnd) as (m & -> & Hm).
  - destruct Hm as [[-> _]|(y & m' & B & L'' & E & _)]; [|discriminate]. exists [a0]. split; [constructor; [exact Ha0|constructor]|].
    cbn [concat]. rewrite !app_nil_r. symmetry. exact S0.
  - destruct Hm as [[_ E]|(y & m' & B' & L'' & E & -> & Hy & HW' & HE')]; [discriminate|]. injection E as <- <-.
    destruct (IH (L1 ++ [A]) B y m') as (picks & HF & EP); auto; [rewrite <- app_assoc; exact EL|].
    exists (a0 :: picks). split; [constructor; assumption|]. cbn [concat]. rewrite <- EP. rewrite S0 at 2. reflexivity.
Qed.

Lemma walk_app : forall l1 a l2, walk h a (l1 ++ l2) <-> walk h a l1 /\ walk h (last l1 a) l2.
Proof.
  induction l1 as [|b l1 IH]; intros a l2; cbn [app walk].
  - cbn. tauto.
  - rewrite IH, last_cons. tauto.
Qed.
Lemma walk_inside : forall A a0 r l1 x, In A L -> In a0 A -> a0 = l1 ++ x :: r -> walk h x r.
Proof.
  intros A a0 r. induction r as [|y r IH]; intros l1 x HA Ha E; [exact I|]. cbn [walk]. split.
  - apply He. left. exists A, a0, l1, r. auto.
  - apply (IH (l1 ++ [x])); auto. rewrite <- app_assoc. exact E.
Qed.
Lemma picks_walk : forall L2 L1 A picks, L = L1 ++ A :: L2 -> Forall2 (fun p A => In p A) picks (A :: L2) ->
  exists a l, concat picks = a :: l /\ In a (heads A) /\ walk h a l /\ In (last l a) (lasts (last L [])).
Proof.
  induction L2 as [|B L2 IH]; intros L1 A picks EL HF; revert EL; inversion HF as [|a0 A' picks' r Ha0 HF']; subst; intros EL;
    assert (HA : In A L) by (rewrite EL; apply in_app_iff; right; left; reflexivity);
    pose proof (head_split a0 (ne_alt _ _ HA Ha0)) as S0.
  - revert EL. inversion HF'; subst. intros EL. exists (hd 0 a0), (tl a0). cbn [concat]. rewrite app_nil_r. split; [exact S0|]. split; [apply in_map; exact Ha0|].
    split; [apply (walk_inside A a0 _ []); auto|]. rewrite EL, last_last, <- (last_cons _ _ 0), <- S0. apply in_map with (f := fun a => last a 0). exact Ha0.
  - destruct (IH (L1 ++ [A]) B picks') as (y & m & EP & Hy & HW & HE); [rewrite <- app_assoc; exact EL|exact HF'|].
    exists (hd 0 a0), (tl a0 ++ concat picks'). cbn [concat]. rewrite app_comm_cons, <- S0. split; [reflexivity|]. split; [apply in_map; exact Ha0|].
    rewrite EP. split.
    + apply walk_app. split; [apply (walk_inside A a0 _ []); auto|]. cbn [walk]. split; [|exact HW]. apply He. right.
      exists L1, A, B, L2. split; [exact EL|]. split; [|exact Hy]. rewrite <- (last_cons _ _ 0), <- S0. apply in_map with (f := fun a => last a 0). exact Ha0.
    + rewrite last_app_cons. exact HE.
Qed.
End Paths.
