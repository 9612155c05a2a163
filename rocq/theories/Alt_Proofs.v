From Coq Require Import List ZArith Arith Bool Ascii String Lia.
From Verif Require Import Base Graph_Model Links_Model Links_Spec Links_Proofs Alt_Model Alt_Spec.
Import ListNotations.
Local Open Scope res_scope.
Local Notation len := (@List.length _).

(** ** Characters *)
Lemma split_app_sep : forall l cur c r, is_sep c = true ->
  split_from cur (l ++ c :: r) = split_from cur l ++ split_words r.
Proof.
  induction l as [|d l IH]; intros cur c r Hc.
  - cbn [app split_from]. rewrite Hc. reflexivity.
  - cbn [app split_from]. destruct (is_sep d); rewrite IH by exact Hc; [rewrite app_assoc|]; reflexivity.
Qed.

Lemma split_from_sep : forall cur c r, is_sep c = true ->
  split_from cur (c :: r) = split_from cur [] ++ split_words r.
Proof. intros cur c r H. apply (split_app_sep [] cur c r H). Qed.

(** Two texts are alike when they have the same words whatever surrounds them. *)
Lemma split_sep_cons : forall c r, is_sep c = true -> split_words (c :: r) = split_words r.
Proof. intros c r H. unfold split_words at 1. cbn [split_from]. rewrite H. reflexivity. Qed.

Lemma special_nosep : forall c, is_special c = true -> is_sep c = false.
Proof.
  intros c H. unfold is_special in H. rewrite !orb_true_iff in H.
  destruct H as [[[H|H]|H]|H]; apply Ascii.eqb_eq in H; subst; reflexivity.
Qed.

Lemma space_sep : is_sep " " = true.
Proof. reflexivity. Qed.

Definition spaced (l : list ascii) : list ascii :=
  flat_map (fun c => if is_special c then [" "%char; c; " "%char] else [c]) l.

(** [cur] is the run in progress; before a special character it is flushed either way.  The
    text may then be changed by [m], which leaves special characters and spaces alone. *)
Section Filter.
Variable m : ascii -> ascii.
Hypothesis m_special : forall c, is_special c = true -> m c = c.
Hypothesis m_space : m " " = " "%char.

Lemma filter_space_split : forall l prev cur,
  (cur = [] \/ exists p cur', cur = m p :: cur' /\ prev = Some p /\ is_sep (m p) = false) ->
  (prev = None -> cur = []) ->
  split_from cur (map m (filter_space_from prev l)) = split_from cur (map m (spaced l)).
Proof.
  induction l as [|c l IH]; intros prev cur Hcur Hn; [reflexivity|].
  cbn [filter_space_from spaced flat_map]. fold (spaced l). destruct (is_special c) eqn:Es.
  - assert (Hc : is_sep c = false) by (apply special_nosep; exact Es).
    set (after := match l with [] => [] | n :: _ => if Ascii.eqb n " " then filter_space_from (Some c) l
                      else " "%char :: filter_space_from (Some " "%char) l end).
    assert (Hrest : split_from [] (map m (c :: after)) = split_from [] (map m (c :: " "%char :: spaced l))).
    { unfold after. cbn [map split_from]. rewrite (m_special c Es), Hc, m_space, space_sep.
      destruct l as [|n l]; [reflexivity|].
      destruct (Ascii.eqb_spec n " ") as [->|Hn'].
      - assert (En : is_special " " = false) by reflexivity.
        cbn [filter_space_from map]. rewrite En. cbn [map split_from]. rewrite m_space, space_sep. f_equal.
        specialize (IH (Some c) []). cbn [filter_space_from spaced flat_map] in IH. rewrite En in IH.
        cbn [app map split_from] in IH. rewrite m_space, space_sep in IH. cbn [app] in IH. cbn [spaced flat_map]. rewrite En.
        cbn [app map split_from]. rewrite m_space, space_sep. cbn [app]. apply IH; [now left|reflexivity].
      - cbn [map split_from]. rewrite m_space, space_sep. f_equal. apply IH; [now left|discriminate]. }
    cbn [app].
    destruct Hcur as [->|(p & cur' & -> & -> & Hp)].
    + assert (E : split_from [] (map m (" "%char :: c :: " "%char :: spaced l)) = split_from [] (map m (c :: " "%char :: spaced l))).
      { cbn [map]. rewrite m_space. reflexivity. }
      rewrite E, <- Hrest. destruct prev as [p|]; [|reflexivity]. destruct (Ascii.eqb p " "); [reflexivity|].
      cbn [app map]. rewrite m_space. reflexivity.
    + assert (Hps : Ascii.eqb p " " = false).
      { destruct (Ascii.eqb_spec p " ") as [->|]; [rewrite m_space in Hp; discriminate|reflexivity]. }
      rewrite Hps. cbn [app map]. rewrite m_space. rewrite !(split_from_sep (m p :: cur') " ") by reflexivity. f_equal.
      cbn [map] in Hrest. rewrite m_space in Hrest. exact Hrest.
  - cbn [app map split_from]. destruct (is_sep (m c)) eqn:Ec.
    + f_equal. apply IH; [now left|discriminate].
    + apply IH; [|discriminate]. right. exists c, cur. auto.
Qed.
End Filter.

Lemma filter_space_lex : forall l, split_words (filter_space l) = lex l.
Proof.
  intros l. pose proof (filter_space_split (fun c => c) (fun c _ => eq_refl) eq_refl l None [] (or_introl eq_refl) (fun _ => eq_refl)) as H.
  rewrite !map_id in H. exact H.
Qed.

Definition unders (c : ascii) : ascii :=
  let c1 := if Ascii.eqb c "_" then " "%char else c in if Ascii.eqb c1 "#" then " "%char else c1.

Lemma replace_unders : forall l, replace_char "#" " " (replace_char "_" " " l) = map unders l.
Proof. intros l. unfold replace_char. rewrite map_map. reflexivity. Qed.

Lemma unders_special : forall c, is_special c = true -> unders c = c.
Proof.
  intros c H. unfold is_special in H. rewrite !orb_true_iff in H.
  destruct H as [[[H|H]|H]|H]; apply Ascii.eqb_eq in H; subst; reflexivity.
Qed.
Lemma unders_nospecial : forall c, is_special c = false -> is_special (unders c) = false.
Proof.
  intros c H. unfold unders. destruct (Ascii.eqb c "_"); [reflexivity|]. destruct (Ascii.eqb c "#"); [reflexivity|exact H].
Qed.
Lemma unders_spaced : forall l, map unders (spaced l) = spaced (map unders l).
Proof.
  induction l as [|c l IH]; [reflexivity|]. cbn [spaced flat_map map]. fold (spaced l). fold (spaced (map unders l)).
  rewrite map_app, IH. f_equal. destruct (is_special c) eqn:E.
  - rewrite (unders_special c E), E. cbn [map]. rewrite (unders_special c E). reflexivity.
  - rewrite (unders_nospecial c E). reflexivity.
Qed.
Lemma filter_space_lex_ex : forall l,
  split_words (replace_char "#" " " (replace_char "_" " " (filter_space l))) =
  lex (replace_char "#" " " (replace_char "_" " " l)).
Proof.
  intros l. rewrite !replace_unders. unfold lex. fold (spaced (map unders l)). rewrite <- unders_spaced.
  apply (filter_space_split unders unders_special eq_refl l None []); [now left|reflexivity].
Qed.

(** ** Printing and reading back *)
Scheme item_mind := Induction for item Sort Prop
  with seqn_mind := Induction for seqn Sort Prop
  with alts_mind := Induction for alts Sort Prop.
Combined Scheme alt_mutind from item_mind, seqn_mind, alts_mind.

(** Words plain, nothing else. *)
Fixpoint pl_item (i : item) : Prop :=
  match i with IWord w => plain w | IEmpty => True | IGroup a => pl_alts a end
with pl_seq (s : seqn) : Prop :=
  match s with SNil => True | SCons i r => pl_item i /\ pl_seq r end
with pl_alts (a : alts) : Prop :=
  match a with AOne s => pl_seq s | AMore s r => pl_seq s /\ pl_alts r end.

Lemma ok_pl : (forall i, ok_item i -> pl_item i) /\ (forall s, ok_seq s -> pl_seq s) /\
  (forall a, ok_inner a -> pl_alts a).
Proof. apply alt_mutind; simpl; intuition. Qed.

Lemma plain_eqb : forall w, plain w -> String.eqb w "{" = false /\ String.eqb w "}" = false /\
  String.eqb w "/" = false /\ String.eqb w "@" = false /\ String.eqb w EmptyString = false.
Proof.
  intros w (H0 & H1 & H2 & H3 & H4).
  repeat split; apply String.eqb_neq; assumption.
Qed.

Local Open Scope Z_scope.
Lemma sep_skip :
  (forall i, pl_item i -> forall d cur r, 0 <= d -> sep_from d cur (print_item i ++ r) = sep_from d (cur ++ print_item i) r) /\
  (forall s, pl_seq s -> forall d cur r, 0 <= d -> sep_from d cur (print_seq s ++ r) = sep_from d (cur ++ print_seq s) r) /\
  (forall a, pl_alts a -> forall d cur r, 1 <= d -> sep_from d cur (print_alts a ++ r) = sep_from d (cur ++ print_alts a) r).
Proof.
  apply alt_mutind.
  - intros w Hw d cur r Hd. destruct (plain_eqb w Hw) as (E1 & E2 & E3 & _ & _).
    cbn [print_item app sep_from]. rewrite E1, E2, E3. reflexivity.
  - intros _ d cur r Hd. reflexivity.
  - intros a IH Ha d cur r Hd. cbn [print_item app sep_from].
    change (String.eqb "{" "{") with true. change (String.eqb "{" "/") with false. cbn [andb].
    rewrite <- app_assoc, IH by (assumption || lia). cbn [app sep_from].
    change (String.eqb "}" "{") with false. change (String.eqb "}" "}") with true. change (String.eqb "}" "/") with false.
    cbn [andb]. replace (d + 1 - 1) with d by lia. f_equal. rewrite <- !app_assoc. reflexivity.
  - intros _ d cur r Hd. cbn [print_seq app]. rewrite app_nil_r. reflexivity.
  - intros i IHi s IHs [Hi Hs] d cur r Hd. cbn [print_seq]. rewrite <- app_assoc, IHi, IHs by assumption.
    rewrite app_assoc. reflexivity.
  - intros s IH Hs d cur r Hd. apply IH; [exact Hs|lia].
  - intros s IHs a IHa [Hs Ha] d cur r Hd. cbn [print_alts]. rewrite <- app_assoc, IHs by (assumption || lia).
    cbn [app sep_from]. change (String.eqb "/" "{") with false. change (String.eqb "/" "}") with false.
    change (String.eqb "/" "/") with true. cbn [andb]. cbn iota. destruct (Z.eqb_spec d 0); [lia|]. 
    rewrite IHa by assumption. rewrite <- !app_assoc. reflexivity.
Qed.

Lemma tok_skip :
  (forall i, pl_item i -> forall d cur r, 1 <= d -> tok_from d cur (print_item i ++ r) = tok_from d (cur ++ print_item i) r) /\
  (forall s, pl_seq s -> forall d cur r, 1 <= d -> tok_from d cur (print_seq s ++ r) = tok_from d (cur ++ print_seq s) r) /\
  (forall a, pl_alts a -> forall d cur r, 1 <= d -> tok_from d cur (print_alts a ++ r) = tok_from d (cur ++ print_alts a) r).
Proof.
  apply alt_mutind.
  - intros w Hw d cur r Hd. destruct (plain_eqb w Hw) as (E1 & E2 & E3 & _ & _).
    cbn [print_item app tok_from]. rewrite E1, E2. cbn [andb]. destruct (Z.eqb_spec d 0); [lia|]. reflexivity.
  - intros _ d cur r Hd. cbn [print_item app tok_from].
    change (String.eqb "@" "{") with false. change (String.eqb "@" "}") with false. cbn [andb].
    destruct (Z.eqb_spec d 0); [lia|]. reflexivity.
  - intros a IH Ha d cur r Hd. cbn [print_item app tok_from].
    change (String.eqb "{" "{") with true. change (String.eqb "{" "}") with false. cbn [andb].
    destruct (Z.eqb_spec (d + 1) 1); [lia|]. destruct (Z.eqb_spec (d + 1) 0); [lia|].
    rewrite <- app_assoc, IH by (assumption || lia). cbn [app tok_from].
    change (String.eqb "}" "{") with false. change (String.eqb "}" "}") with true.
    cbn [andb]. replace (d + 1 - 1) with d by lia. destruct (Z.eqb_spec d 0); [lia|].
    f_equal. rewrite <- !app_assoc. reflexivity.
  - intros _ d cur r Hd. cbn [print_seq app]. rewrite app_nil_r. reflexivity.
  - intros i IHi s IHs [Hi Hs] d cur r Hd. cbn [print_seq]. rewrite <- app_assoc, IHi, IHs by assumption.
    rewrite app_assoc. reflexivity.
  - intros s IH Hs d cur r Hd. apply IH; [exact Hs|lia].
  - intros s IHs a IHa [Hs Ha] d cur r Hd. cbn [print_alts]. rewrite <- app_assoc, IHs by (assumption || lia).
    cbn [app tok_from]. change (String.eqb "/" "{") with false. change (String.eqb "/" "}") with false.
    cbn [andb]. destruct (Z.eqb_spec d 0); [lia|].
    rewrite IHa by assumption. rewrite <- !app_assoc. reflexivity.
Qed.
Local Close Scope Z_scope.

Definition content (i : item) : list string :=
  match i with IWord w => [w] | IEmpty => ["@"%string] | IGroup a => print_alts a end.
Fixpoint items (s : seqn) : list item := match s with SNil => [] | SCons i r => i :: items r end.
Fixpoint seqs (a : alts) : list seqn := match a with AOne s => [s] | AMore s r => s :: seqs r end.

Lemma print_item_nonempty : forall i, print_item i <> [].
Proof. destruct i; discriminate. Qed.

Lemma tok_items : forall s, pl_seq s -> tok_from 0 [] (print_seq s) = map content (items s).
Proof.
  induction s as [|i s IH]; intros H; [reflexivity|]. destruct H as [Hi Hs]. cbn [print_seq items map].
  destruct i as [w| |a]; cbn [content print_item app tok_from].
  - destruct (plain_eqb w Hi) as (E1 & E2 & _). rewrite E1, E2. cbn [andb app]. rewrite Z.eqb_refl. rewrite IH by exact Hs. reflexivity.
  - change (String.eqb "@" "{") with false. change (String.eqb "@" "}") with false. cbn [andb app]. rewrite Z.eqb_refl.
    rewrite IH by exact Hs. reflexivity.
  - change (String.eqb "{" "{") with true. change (0 + 1)%Z with 1%Z. rewrite Z.eqb_refl. cbn [andb].
    rewrite <- app_assoc. rewrite (proj2 (proj2 tok_skip)) by (exact Hi || lia). cbn [app tok_from].
    change (String.eqb "}" "{") with false. change (String.eqb "}" "}") with true. change (1 - 1)%Z with 0%Z.
    cbn [andb]. rewrite Z.eqb_refl. cbn [app]. rewrite IH by exact Hs. reflexivity.
Qed.

Lemma tokenise_print : forall s, pl_seq s ->
  tokenise_words (print_seq s) = match s with SNil => [[]] | _ => map content (items s) end.
Proof.
  intros s H. unfold tokenise_words. rewrite tok_items by exact H. destruct s as [|i s]; [reflexivity|].
  cbn [print_seq]. destruct (print_item i ++ print_seq s) eqn:E; [|reflexivity].
  apply app_eq_nil in E. destruct (print_item_nonempty i (proj1 E)).
Qed.

Lemma separate_print : forall a, pl_alts a -> separate_by_slash (print_alts a) = map print_seq (seqs a).
Proof.
  unfold separate_by_slash. induction a as [s|s a IH]; intros H; cbn [print_alts seqs map].
  - rewrite <- (app_nil_r (print_seq s)) at 1. rewrite (proj1 (proj2 sep_skip)) by (exact H || lia). reflexivity.
  - destruct H as [Hs Ha]. rewrite (proj1 (proj2 sep_skip)) by (exact Hs || lia). cbn [sep_from app].
    change (String.eqb "/" "{") with false. change (String.eqb "/" "}") with false.
    change (String.eqb "/" "/") with true. rewrite Z.eqb_refl. cbn [andb]. rewrite IH by exact Ha. reflexivity.
Qed.

(** ** Walks in growing graphs *)
Definition ext (st st' : pstate) : Prop :=
  (exists new, ps_toks st' = ps_toks st ++ new) /\
  forall x, x < len (ps_toks st) -> nxt (ps_links st') x = nxt (ps_links st) x.
Definition within (lo hi : nat) (l : list nat) : Prop := forall x, In x l -> lo <= x < hi.

Lemma ext_refl : forall st, ext st st.
Proof. intros st. split; [exists []; rewrite app_nil_r; reflexivity|reflexivity]. Qed.
Lemma ext_len : forall st st', ext st st' -> len (ps_toks st) <= len (ps_toks st').
Proof. intros st st' [(new & ->) _]. rewrite app_length. lia. Qed.
Lemma ext_trans : forall a b c, ext a b -> ext b c -> ext a c.
Proof.
  intros a b c H1 H2. pose proof (ext_len _ _ H1). destruct H1 as [(n1 & E1) N1], H2 as [(n2 & E2) N2]. split.
  - exists (n1 ++ n2). rewrite E2, E1, app_assoc. reflexivity.
  - intros x Hx. rewrite N2, N1 by lia. reflexivity.
Qed.

Lemma ext_text : forall st st' x, ext st st' -> x < len (ps_toks st) -> text_of st' x = text_of st x.
Proof. intros st st' x [(new & E) _] Hx. unfold text_of. rewrite E, app_nth1 by exact Hx. reflexivity. Qed.

Lemma good_no_cross : forall st st', good st -> ext st st' -> forall x y,
  x < len (ps_toks st) -> edge (ps_links st') x y -> edge (ps_links st) x y /\ y < len (ps_toks st).
Proof.
  intros st st' [_ Hg] [_ Hn] x y Hx He. unfold edge in He. rewrite Hn in He by exact Hx.
  split; [exact He|]. apply Hg in He. lia.
Qed.

Lemma walk_below : forall st st', good st -> ext st st' -> forall l a, a < len (ps_toks st) ->
  walk (ps_links st') a l -> walk (ps_links st) a l /\ forall x, In x (a :: l) -> x < len (ps_toks st).
Proof.
  intros st st' Hg He. induction l as [|b l IH]; intros a Ha Hw.
  - split; [exact I|]. intros x [<-|[]]. exact Ha.
  - destruct Hw as [Hab Hw]. destruct (good_no_cross st st' Hg He a b Ha Hab) as [H1 H2].
    destruct (IH b H2 Hw) as [H3 H4]. split; [split; assumption|]. intros x [<-|Hx]; auto.
Qed.
Lemma walk_above : forall st st', ext st st' -> forall l a, (forall x, In x (a :: l) -> x < len (ps_toks st)) ->
  walk (ps_links st) a l -> walk (ps_links st') a l.
Proof.
  intros st st' [_ Hn]. induction l as [|b l IH]; intros a Ha Hw; [exact I|]. destruct Hw as [Hab Hw]. split.
  - unfold edge. rewrite Hn by (apply Ha; now left). exact Hab.
  - apply IH; [intros x Hx; apply Ha; now right|exact Hw].
Qed.

Lemma last_cons_in : forall (l : list nat) a, In (List.last l a) (a :: l).
Proof.
  induction l as [|b l IH]; intros a; [now left|]. destruct l as [|c l]; [right; now left|].
  destruct (IH a) as [E|H]; [left; exact E|right; right; exact H].
Qed.
Lemma last_cons : forall (l : list nat) a b, List.last (b :: l) a = List.last l b.
Proof.
  induction l as [|c l IH]; intros a b; [reflexivity|]. change (List.last (b :: c :: l) a) with (List.last (c :: l) a).
  rewrite IH. symmetry. apply IH.
Qed.
Lemma last_app_cons : forall (l1 : list nat) b l2 a, List.last (l1 ++ b :: l2) a = List.last l2 b.
Proof.
  induction l1 as [|c l1 IH]; intros b l2 a; [apply last_cons|]. cbn [app]. rewrite last_cons. apply IH.
Qed.

Lemma map_text : forall st st' l, ext st st' -> (forall x, In x l -> x < len (ps_toks st)) ->
  map (text_of st') l = map (text_of st) l.
Proof. intros st st' l He H. apply map_ext_in. intros x Hx. apply ext_text; auto. Qed.

Lemma spells_ext : forall st st' S E w, good st -> ext st st' -> within 0 (len (ps_toks st)) S ->
  spells st' S E w <-> spells st S E w.
Proof.
  intros st st' S E w Hg He HS. split; intros (a & l & Ha & Hw & Hl & Hm); exists a, l.
  - destruct (walk_below st st' Hg He l a) as [H1 H2]; [apply HS; exact Ha|exact Hw|].
    split; [exact Ha|]. split; [exact H1|]. split; [exact Hl|]. rewrite <- Hm. symmetry. apply map_text; auto.
  - assert (Hb : forall x, In x (a :: l) -> x < len (ps_toks st)).
    { destruct (walk_below st st Hg (ext_refl st) l a) as [_ H2]; auto. apply HS. exact Ha. }
    split; [exact Ha|]. split; [apply walk_above with st; auto|]. split; [exact Hl|]. rewrite <- Hm.
    apply map_text; auto.
Qed.

Lemma walk_app : forall h l1 a b l2, walk h a (l1 ++ b :: l2) <-> walk h a l1 /\ edge h (List.last l1 a) b /\ walk h b l2.
Proof.
  intros h. induction l1 as [|c l1 IH]; intros a b l2.
  - simpl. tauto.
  - cbn [app walk]. rewrite last_cons, IH. tauto.
Qed.

Lemma walk_mono : forall h l a, (forall x y, edge h x y -> x < y) -> walk h a l -> forall x, In x l -> a < x.
Proof.
  intros h. induction l as [|b l IH]; intros a Hh Hw x Hx; [destruct Hx|]. destruct Hw as [Hab Hw].
  pose proof (Hh _ _ Hab). destruct Hx as [<-|Hx]; [exact H|]. pose proof (IH b Hh Hw x Hx). lia.
Qed.

(** ** Composition of two pieces of graph *)
Section Compose.
Variables (st st1 : pstate) (Ps Pe Vs Ve : list nat).
Hypothesis Hg : good st.
Hypothesis Hg1 : good st1.
Hypothesis He : ext st st1.
Let mid := len (ps_toks st).
Hypothesis HPs : within 0 mid Ps.
Hypothesis HPe : within 0 mid Pe.
Hypothesis HVs : within mid (len (ps_toks st1)) Vs.
Hypothesis HVe : within mid (len (ps_toks st1)) Ve.
Let st2 := attach_to st1 Pe Vs.

Lemma attach_edge : forall x y, edge (ps_links st2) x y <-> edge (ps_links st1) x y \/ (In x Pe /\ In y Vs).
Proof. intros x y. apply attach_spec. Qed.

Lemma good2 : good st2.
Proof.
  split; [apply attach_spec; apply Hg1|]. intros x y H. apply attach_edge in H. destruct H as [H|[Hx Hy]].
  - apply Hg1. exact H.
  - apply HPe in Hx. apply HVs in Hy. unfold st2, attach_to. cbn [ps_toks]. lia.
Qed.

Lemma walk2_high : forall l a, mid <= a -> (walk (ps_links st2) a l <-> walk (ps_links st1) a l).
Proof.
  induction l as [|b l IH]; intros a Ha; [tauto|]. cbn [walk]. rewrite attach_edge.
  assert (Hp : In a Pe -> False) by (intros H; apply HPe in H; lia).
  split.
  - intros [[H|[H _]] Hw]; [|tauto]. split; [exact H|]. apply IH; [|exact Hw]. apply Hg1 in H. lia.
  - intros [H Hw]. split; [now left|]. apply IH; [|exact Hw]. apply Hg1 in H. lia.
Qed.

Lemma walk2_low : forall l a, a < mid -> walk (ps_links st2) a l ->
  (walk (ps_links st1) a l /\ (forall x, In x (a :: l) -> x < mid)) \/
  (exists l1 b l2, l = l1 ++ b :: l2 /\ walk (ps_links st1) a l1 /\ In (List.last l1 a) Pe /\
     In b Vs /\ walk (ps_links st1) b l2).
Proof.
  induction l as [|b l IH]; intros a Ha Hw.
  - left. split; [exact I|]. intros x [<-|[]]. exact Ha.
  - destruct Hw as [Hab Hw]. apply attach_edge in Hab. destruct Hab as [Hab|[H1 H2]].
    + destruct (good_no_cross st st1 Hg He a b Ha Hab) as [_ Hb].
      destruct (IH b Hb Hw) as [[H1 H2]|(l1 & c & l2 & -> & H1 & H2 & H3 & H4)].
      * left. split; [split; assumption|]. intros x [<-|Hx]; auto.
      * right. exists (b :: l1), c, l2. split; [reflexivity|]. split; [split; assumption|].
        rewrite last_cons. auto.
    + right. exists [], b, l. split; [reflexivity|]. split; [exact I|]. split; [exact H1|]. split; [exact H2|].
      apply walk2_high; [|exact Hw]. apply HVs in H2. lia.
Qed.

Lemma text2 : forall l, map (text_of st2) l = map (text_of st1) l.
Proof. reflexivity. Qed.

Lemma high_last : forall l a, mid <= a -> walk (ps_links st1) a l -> mid <= List.last l a.
Proof.
  intros l a Ha Hw. destruct (last_cons_in l a) as [E|H]; [rewrite <- E; exact Ha|].
  pose proof (walk_mono (ps_links st1) l a (fun x y H => proj1 (proj2 Hg1 x y H)) Hw _ H). lia.
Qed.

Lemma compose : forall (np nv : bool) w,
  spells st2 (if np then Ps ++ Vs else Ps) ((if nv then Pe else []) ++ Ve) w <->
  (nv = true /\ spells st Ps Pe w) \/ (np = true /\ spells st1 Vs Ve w) \/
  (exists w1 w2, w = w1 ++ w2 /\ spells st Ps Pe w1 /\ spells st1 Vs Ve w2).
Proof.
  intros np nv w.
  rewrite <- (spells_ext st st1 Ps Pe w Hg He HPs).
  assert (Hx : (exists w1 w2, w = w1 ++ w2 /\ spells st Ps Pe w1 /\ spells st1 Vs Ve w2) <->
               (exists w1 w2, w = w1 ++ w2 /\ spells st1 Ps Pe w1 /\ spells st1 Vs Ve w2)).
  { split; intros (w1 & w2 & H1 & H2 & H3); exists w1, w2; (split; [exact H1|split; [|exact H3]]);
      apply (spells_ext st st1 Ps Pe w1 Hg He HPs); exact H2. }
  rewrite Hx. clear Hx. split.
  - intros (a & l & Ha & Hw & Hl & Hm). rewrite text2 in Hm.
    assert (Hcase : In a Ps \/ (np = true /\ In a Vs)).
    { destruct np; [|auto]. apply in_app_or in Ha. destruct Ha; auto. }
    destruct Hcase as [HaP|[Hnp HaV]].
    + assert (Hlow : a < mid) by (apply HPs in HaP; lia).
      destruct (walk2_low l a Hlow Hw) as [[Hw1 Hb]|(l1 & b & l2 & -> & Hw1 & Hl1 & Hb & Hw2)].
      * left. apply in_app_or in Hl. destruct Hl as [Hl|Hl].
        -- destruct nv; [|destruct Hl]. split; [reflexivity|]. exists a, l. auto.
        -- apply HVe in Hl. specialize (Hb _ (last_cons_in l a)). lia.
      * right. right. rewrite last_app_cons in Hl.
        exists (map (text_of st1) (a :: l1)), (map (text_of st1) (b :: l2)).
        split; [rewrite <- Hm; rewrite <- map_app; reflexivity|]. split; [exists a, l1; auto|].
        exists b, l2. split; [exact Hb|]. split; [exact Hw2|]. split; [|reflexivity].
        apply in_app_or in Hl. destruct Hl as [Hl|Hl]; [|exact Hl].
        assert (Hlo : mid <= List.last l2 b) by (apply high_last; [apply HVs in Hb; lia|exact Hw2]).
        destruct nv; [|destruct Hl]. apply HPe in Hl. lia.
    + right. left. split; [exact Hnp|]. assert (Hhi : mid <= a) by (apply HVs in HaV; lia).
      apply walk2_high in Hw; [|exact Hhi]. exists a, l. split; [exact HaV|]. split; [exact Hw|]. split; [|exact Hm].
      apply in_app_or in Hl. destruct Hl as [Hl|Hl]; [|exact Hl].
      pose proof (high_last l a Hhi Hw). destruct nv; [|destruct Hl]. apply HPe in Hl. lia.
  - assert (Hup : forall a l, walk (ps_links st1) a l -> walk (ps_links st2) a l).
    { intros a l. revert a. induction l as [|b l IH]; intros a Hw; [exact I|]. destruct Hw as [H1 H2].
      split; [apply attach_edge; now left|auto]. }
    intros [[-> (a & l & Ha & Hw & Hl & Hm)]|[[-> (a & l & Ha & Hw & Hl & Hm)]|(w1 & w2 & -> & (a & l & Ha & Hw & Hl & Hm) & (b & l' & Hb & Hw' & Hl' & Hm'))]].
    + exists a, l. split; [destruct np; [apply in_or_app; auto|exact Ha]|]. split; [auto|]. split; [apply in_or_app; auto|exact Hm].
    + exists a, l. split; [apply in_or_app; auto|]. split; [auto|]. split; [apply in_or_app; auto|exact Hm].
    + exists a, (l ++ b :: l'). split; [destruct np; [apply in_or_app; auto|exact Ha]|]. split.
      * apply walk_app. split; [auto|]. split; [apply attach_edge; auto|auto].
      * rewrite last_app_cons. split; [apply in_or_app; auto|]. rewrite text2.
        change (a :: l ++ b :: l') with ((a :: l) ++ b :: l'). rewrite map_app. rewrite Hm, Hm'. reflexivity.
Qed.

(** Side by side. *)
Lemma side_by_side : forall w,
  spells st1 (Ps ++ Vs) (Pe ++ Ve) w <-> spells st Ps Pe w \/ spells st1 Vs Ve w.
Proof.
  intros w. rewrite <- (spells_ext st st1 Ps Pe w Hg He HPs). split.
  - intros (a & l & Ha & Hw & Hl & Hm). apply in_app_or in Ha. destruct Ha as [Ha|Ha].
    + left. exists a, l. split; [exact Ha|]. split; [exact Hw|]. split; [|exact Hm].
      apply in_app_or in Hl. destruct Hl as [Hl|Hl]; [exact Hl|].
      destruct (walk_below st st1 Hg He l a) as [_ Hb]; [apply HPs in Ha; unfold mid in *; lia|exact Hw|].
      specialize (Hb _ (last_cons_in l a)). apply HVe in Hl. unfold mid in Hl. lia.
    + right. exists a, l. split; [exact Ha|]. split; [exact Hw|]. split; [|exact Hm].
      apply in_app_or in Hl. destruct Hl as [Hl|Hl]; [|exact Hl].
      assert (mid <= List.last l a) by (apply high_last; [apply HVs in Ha; lia|exact Hw]).
      apply HPe in Hl. lia.
  - intros [(a & l & Ha & Hw & Hl & Hm)|(a & l & Ha & Hw & Hl & Hm)]; exists a, l;
      (split; [apply in_or_app; auto|split; [exact Hw|split; [apply in_or_app; auto|exact Hm]]]).
Qed.
End Compose.

(** ** The loops of [parse] *)
Section Loops.
Variable P : list string -> pstate -> res (pstate * vseg).
Variables (x : extended) (opt : bool) (n : nat).

Fixpoint seq_loop (i : nat) (l : list (list string)) (st : pstate) (isfirst : bool)
    (prec : option (list nat)) (out : vseg) : res (pstate * vseg) :=
  match l with
  | [] => Ok (st, out)
  | w :: r =>
      match w with
      | _ :: _ :: _ =>
          let* (st1, toks) := P w st in
          let out1 := if vs_trav toks && (n =? 1) then set_trav out else out in
          let '(st2, first2, prec2, out2) := add_step st1 isfirst prec out1 toks in
          seq_loop (S i) r st2 first2 prec2 out2
      | _ =>
          let word := match w with [u] => u | _ => EmptyString end in
          if String.eqb word EmptyString || String.eqb word "@" then
            if n =? 1 then
              let '(st2, first2, prec2, out2) := add_step st isfirst prec (set_trav out) empty_vseg in
              seq_loop (S i) r st2 first2 prec2 out2
            else seq_loop (S i) r st isfirst prec out
          else
            let '(st1, t) := add_token st (make_token x opt n i word) in
            let '(st2, first2, prec2, out2) :=
              add_step st1 isfirst prec out {| vs_start := [t]; vs_end := [t]; vs_trav := false |} in
            seq_loop (S i) r st2 first2 prec2 out2
      end
  end.
Fixpoint each_loop (l : list (list string)) (st : pstate) (out : vseg) : res (pstate * vseg) :=
  match l with
  | [] => Ok (st, out)
  | w :: r =>
      let* (st1, por) := P w st in
      each_loop r st1 {| vs_start := vs_start out ++ vs_start por;
                         vs_end := vs_end out ++ vs_end por;
                         vs_trav := if vs_trav por then true else vs_trav out |}
  end.
End Loops.

Lemma parse_S : forall f x opt ws st, parse (S f) x opt ws st =
  match separate_by_slash ws with
  | [one] => seq_loop (parse f x opt) x opt (len (tokenise_words one)) 0 (tokenise_words one) st true None empty_vseg
  | ors => each_loop (parse f x opt) ors st empty_vseg
  end.
Proof. reflexivity. Qed.

(** Every token made in between is reached from a start token and reaches an end token. *)
Definition full (lo : nat) (st : pstate) (v : vseg) : Prop :=
  forall t, lo <= t < len (ps_toks st) ->
    (exists f l, In f (vs_start v) /\ walk (ps_links st) f l /\ List.last l f = t) /\
    (exists l, walk (ps_links st) t l /\ In (List.last l t) (vs_end v)).

Definition parsed (st st' : pstate) (v : vseg) (L : list string -> Prop) : Prop :=
  (good st' /\ full (len (ps_toks st)) st' v) /\ ext st st' /\
  within (len (ps_toks st)) (len (ps_toks st')) (vs_start v) /\
  within (len (ps_toks st)) (len (ps_toks st')) (vs_end v) /\
  forall w, spells st' (vs_start v) (vs_end v) w <-> w <> [] /\ L w.

Definition inv (st0 st : pstate) (isfirst : bool) (prec : option (list nat)) (out : vseg)
    (L : list string -> Prop) : Prop :=
  parsed st0 st out L /\ (isfirst = true <-> L []) /\
  (exists w, L w) /\
  match prec with None => vs_start out = [] /\ vs_end out = [] | Some pe => pe = vs_end out end.

Definition cat (L1 L2 : list string -> Prop) (w : list string) : Prop :=
  exists w1 w2, w = w1 ++ w2 /\ L1 w1 /\ L2 w2.

Lemma inv_equiv : forall st0 st f p o L L', (forall w, L w <-> L' w) -> inv st0 st f p o L -> inv st0 st f p o L'.
Proof.
  intros st0 st f p o L L' H ((A1 & A2 & A3 & A4 & A5) & B & (w0 & Hw0) & C). split; [|split; [|split; [exists w0; apply H; exact Hw0|exact C]]].
  - split; [exact A1|]. split; [exact A2|]. split; [exact A3|]. split; [exact A4|]. intros w. rewrite A5, H. tauto.
  - rewrite B. apply H.
Qed.
Lemma parsed_equiv : forall st0 st o L L', (forall w, L w <-> L' w) -> parsed st0 st o L -> parsed st0 st o L'.
Proof.
  intros st0 st o L L' H (A1 & A2 & A3 & A4 & A5). split; [exact A1|]. split; [exact A2|].
  split; [exact A3|]. split; [exact A4|]. intros w. rewrite A5, H. tauto.
Qed.

Lemma attach_to_nil : forall st l, attach_to st [] l = st.
Proof. intros [t k] l. reflexivity. Qed.

Lemma within_app : forall lo hi l1 l2, within lo hi l1 -> within lo hi l2 -> within lo hi (l1 ++ l2).
Proof. intros lo hi l1 l2 H1 H2 y Hy. apply in_app_or in Hy. destruct Hy; auto. Qed.
Lemma within_weak : forall lo hi lo' hi' l, within lo hi l -> lo' <= lo -> hi <= hi' -> within lo' hi' l.
Proof. intros lo hi lo' hi' l H H1 H2 y Hy. specialize (H y Hy). lia. Qed.

Lemma step_inv : forall st0 st isfirst prec out L st1 toks Le st2 f2 p2 o2,
  inv st0 st isfirst prec out L -> parsed st st1 toks Le -> (vs_trav toks = true <-> Le []) -> (exists w, Le w) ->
  add_step st1 isfirst prec out toks = (st2, f2, p2, o2) ->
  inv st0 st2 f2 p2 o2 (cat L Le) /\ vs_trav o2 = vs_trav out.
Proof.
  intros st0 st isfirst prec out L st1 toks Le st2 f2 p2 o2 (HP & Hfirst & (w0 & Hw0) & Hprec) HV Htrav (wv & Hwv) Hstep.
  destruct HP as ((Hg & Hfu) & He & Hs & Hen & Hsp). destruct HV as ((Hg1 & Hfu1) & He1 & Hs1 & Hen1 & Hsp1).
  pose proof (ext_len _ _ He) as Hle. pose proof (ext_len _ _ He1) as Hle1.
  assert (HPs : within 0 (len (ps_toks st)) (vs_start out)) by (eapply within_weak; [exact Hs|lia|lia]).
  assert (HPe : within 0 (len (ps_toks st)) (vs_end out)) by (eapply within_weak; [exact Hen|lia|lia]).
  pose proof (compose st st1 (vs_start out) (vs_end out) (vs_start toks) (vs_end toks) Hg Hg1 He1 HPs HPe Hs1 Hen1) as Hc.
  pose proof (good2 st st1 (vs_end out) (vs_start toks) Hg1 HPe Hs1) as Hgood.
  set (st2' := attach_to st1 (vs_end out) (vs_start toks)) in *.
  assert (E2 : (match prec with Some pe => attach_to st1 pe (vs_start toks) | None => st1 end) = st2').
  { destruct prec as [pe|]; [rewrite Hprec; reflexivity|]. destruct Hprec as [_ E]. unfold st2'. rewrite E.
    symmetry. apply attach_to_nil. }
  unfold add_step in Hstep. rewrite E2 in Hstep. injection Hstep as <- <- <- <-. cbn [vs_trav]. split; [|reflexivity].
  assert (Hends : (if negb (vs_trav toks) then [] else vs_end out) ++ vs_end toks =
                  (if vs_trav toks then vs_end out else []) ++ vs_end toks) by (destruct (vs_trav toks); reflexivity).
  split; [|split; [|split; [exists (w0 ++ wv), w0, wv; auto|]]].
  - split; [split; [exact Hgood|]|].
    { (* every token is useful *)
      assert (Hup : forall a l, walk (ps_links st1) a l -> walk (ps_links st2') a l).
      { intros a l. revert a. induction l as [|b l IH]; intros a Hw; [exact I|]. destruct Hw as [H1 H2].
        split; [apply attach_spec; now left|auto]. }
      assert (Hlow : forall a l, a < len (ps_toks st) -> walk (ps_links st) a l -> walk (ps_links st1) a l).
      { intros a l Ha Hw. apply (walk_above st st1 He1); [|exact Hw]. apply (walk_below st st Hg (ext_refl st)); assumption. }
      assert (Hedge : forall a b, In a (vs_end out) -> In b (vs_start toks) -> edge (ps_links st2') a b).
      { intros a b Ha Hb. apply attach_spec. auto. }
      intros t Ht. cbn [vs_start vs_end].
      destruct (le_lt_dec (len (ps_toks st)) t) as [Hhi|Hlo].
      - change (len (ps_toks st2')) with (len (ps_toks st1)) in Ht.
        destruct (Hfu1 t (conj Hhi (proj2 Ht))) as [(f & l & Hf & Hw & Hl) (l' & Hw' & Hl')]. split.
        + destruct isfirst eqn:Ef.
          * exists f, l. split; [apply in_or_app; auto|auto].
          * assert (Hne : w0 <> []) by (intros ->; apply Hfirst in Hw0; discriminate).
            destruct (proj2 (Hsp w0) (conj Hne Hw0)) as (a & la & Ha & Hwa & Hla & _).
            exists a, (la ++ f :: l). split; [exact Ha|]. split; [|rewrite last_app_cons; exact Hl].
            apply walk_app. split; [apply Hup; apply Hlow; [apply HPs in Ha; lia|exact Hwa]|].
            split; [apply Hedge; assumption|apply Hup; exact Hw].
        + exists l'. split; [apply Hup; exact Hw'|apply in_or_app; auto].
      - destruct (Hfu t (conj (proj1 Ht) Hlo)) as [(f & l & Hf & Hw & Hl) (l' & Hw' & Hl')].
        assert (Hwu : walk (ps_links st2') t l') by (apply Hup; apply Hlow; assumption).
        split.
        + exists f, l. split; [destruct isfirst; [apply in_or_app; auto|exact Hf]|]. split; [|exact Hl].
          apply Hup. apply Hlow; [apply HPs in Hf; lia|exact Hw].
        + destruct (vs_trav toks) eqn:Et.
          * exists l'. split; [exact Hwu|apply in_or_app; auto].
          * assert (Hne : wv <> []) by (intros ->; apply Htrav in Hwv; discriminate).
            destruct (proj2 (Hsp1 wv) (conj Hne Hwv)) as (a & la & Ha & Hwa & Hla & _).
            exists (l' ++ a :: la). rewrite last_app_cons. split; [|apply in_or_app; auto].
            apply walk_app. split; [exact Hwu|]. split; [apply Hedge; assumption|apply Hup; exact Hwa]. }
    split.
    { split.
      - destruct He as [(n1 & E1) _], He1 as [(n2 & E3) _]. exists (n1 ++ n2). unfold st2', attach_to. cbn [ps_toks].
        rewrite E3, E1, app_assoc. reflexivity.
      - intros y Hy. unfold st2', attach_to. cbn [ps_links].
        assert (Hny : ~ In y (vs_end out)) by (intros H; apply Hen in H; lia).
        assert (Hk : nxt (attach (ps_links st1) (vs_end out) (vs_start toks)) y = nxt (ps_links st1) y).
        { clear - Hny. unfold attach. revert Hny. generalize (ps_links st1) as h. induction (vs_end out) as [|e l IH]; intros h Hny; [reflexivity|].
          cbn [fold_left]. rewrite IH by (intros H; apply Hny; now right).
          assert (Hey : y <> e) by (intros ->; apply Hny; now left).
          clear IH. revert h. induction (vs_start toks) as [|f fs IHf]; intros h; [reflexivity|]. cbn [fold_left]. rewrite IHf.
          cbn [add_prec add_next nxt]. apply upd_other. exact Hey. }
        rewrite Hk. destruct He as [_ N1], He1 as [_ N2]. rewrite N2, N1 by lia. reflexivity. }
    assert (Hlen : len (ps_toks st2') = len (ps_toks st1)) by reflexivity.
    split; [|split].
    + cbn [vs_start]. rewrite Hlen. destruct isfirst; [apply within_app|]; [eapply within_weak; [exact Hs|lia|lia]|eapply within_weak; [exact Hs1|lia|lia]|eapply within_weak; [exact Hs|lia|lia]].
    + cbn [vs_end]. rewrite Hlen, Hends. apply within_app; [|eapply within_weak; [exact Hen1|lia|lia]].
      destruct (vs_trav toks); [eapply within_weak; [exact Hen|lia|lia]|intros y []].
    + intros w. cbn [vs_start vs_end]. rewrite Hends, (Hc isfirst (vs_trav toks) w). rewrite Hsp, Hsp1. unfold cat.
      split.
      * intros [[Hn [Hw HL]]|[[Hn [Hw HL]]|(w1 & w2 & -> & H1 & H2)]].
        -- split; [exact Hw|]. exists w, []. rewrite app_nil_r. split; [reflexivity|]. split; [exact HL|]. apply Htrav. exact Hn.
        -- split; [exact Hw|]. exists [], w. split; [reflexivity|]. split; [apply Hfirst; exact Hn|exact HL].
        -- apply Hsp in H1. apply Hsp1 in H2. split.
           ++ intros E. apply app_eq_nil in E. destruct H1 as [H1 _]. apply H1. tauto.
           ++ exists w1, w2. tauto.
      * intros (Hw & w1 & w2 & -> & H1 & H2). destruct w1 as [|a w1].
        -- right. left. split; [apply Hfirst; exact H1|]. split; [exact Hw|exact H2].
        -- destruct w2 as [|b w2].
           ++ left. rewrite app_nil_r in *. split; [apply Htrav; exact H2|]. split; [discriminate|exact H1].
           ++ right. right. exists (a :: w1), (b :: w2). split; [reflexivity|].
              split; [apply Hsp; split; [discriminate|exact H1]|apply Hsp1; split; [discriminate|exact H2]].
  - unfold cat. transitivity (isfirst = true /\ vs_trav toks = true).
    { destruct (vs_trav toks), isfirst; simpl; intuition discriminate. }
    rewrite Hfirst, Htrav. split.
    + intros [H1 H2]. exists [], []. auto.
    + intros (w1 & w2 & E & H1 & H2). symmetry in E. apply app_eq_nil in E. destruct E as [-> ->]. auto.
  - cbn [vs_end]. destruct prec as [pe|].
    + rewrite Hprec. destruct (vs_trav toks); reflexivity.
    + destruct Hprec as [_ E]. rewrite E. destruct (vs_trav toks); reflexivity.
Qed.

(** ** Items *)
Lemma says_nil_iff : forall w, says_seq SNil w <-> w = [].
Proof. intros w. split; [intros H; inversion H; reflexivity|intros ->; constructor]. Qed.
Lemma says_cons_iff : forall i s w, says_seq (SCons i s) w <-> cat (says_item i) (says_seq s) w.
Proof.
  intros i s w. split.
  - intros H. inversion H; subst. exists l1, l2. auto.
  - intros (w1 & w2 & -> & H1 & H2). constructor; assumption.
Qed.
Lemma says_single : forall i w, says_seq (SCons i SNil) w <-> says_item i w.
Proof.
  intros i w. rewrite says_cons_iff. split.
  - intros (w1 & w2 & -> & H1 & H2). apply says_nil_iff in H2. subst. rewrite app_nil_r. exact H1.
  - intros H. exists w, []. rewrite app_nil_r. split; [reflexivity|]. split; [exact H|constructor].
Qed.
Lemma says_one_iff : forall s w, says_alts (AOne s) w <-> says_seq s w.
Proof. intros s w. split; [intros H; inversion H; assumption|apply says_one]. Qed.
Lemma says_word_iff : forall u w, says_item (IWord u) w <-> w = [u].
Proof. intros u w. split; [intros H; inversion H; reflexivity|intros ->; constructor]. Qed.
Lemma says_empty_iff : forall w, says_item IEmpty w <-> w = [].
Proof. intros w. split; [intros H; inversion H; reflexivity|intros ->; constructor]. Qed.
Lemma says_group_iff : forall a w, says_item (IGroup a) w <-> says_alts a w.
Proof. intros a w. split; [intros H; inversion H; assumption|apply says_group]. Qed.

Lemma says_some : (forall i, exists w, says_item i w) /\ (forall s, exists w, says_seq s w) /\ (forall a, exists w, says_alts a w).
Proof.
  apply alt_mutind.
  - intros w. exists [w]. constructor.
  - exists []. constructor.
  - intros a (w & H). exists w. constructor. exact H.
  - exists []. constructor.
  - intros i (w1 & H1) s (w2 & H2). exists (w1 ++ w2). constructor; assumption.
  - intros s (w & H). exists w. constructor. exact H.
  - intros s (w & H) a _. exists w. constructor. exact H.
Qed.
Lemma says_alts_some : forall a, exists w, says_alts a w.
Proof. apply says_some. Qed.

Inductive item_case (i : item) : Prop :=
| ic_group : forall a, i = IGroup a -> 2 <= len (content i) -> item_case i
| ic_empty : (content i = [] \/ content i = ["@"%string]) -> (forall w, says_item i w <-> w = []) -> item_case i
| ic_word : forall u, plain u -> content i = [u] -> (forall w, says_item i w <-> w = [u]) -> item_case i.

Lemma print_seq_nil : forall s, print_seq s = [] -> s = SNil.
Proof.
  destruct s as [|i s]; [reflexivity|]. cbn [print_seq]. intros H. apply app_eq_nil in H.
  destruct (print_item_nonempty i (proj1 H)).
Qed.

Lemma item_cases : forall i, ok_item i -> item_case i.
Proof.
  intros [w| |a] Hok.
  - apply ic_word with w; [exact Hok|reflexivity|apply says_word_iff].
  - apply ic_empty; [now right|apply says_empty_iff].
  - destruct Hok as [Hne Hin]. destruct (le_lt_dec 2 (len (print_alts a))) as [H2|H2]; [apply ic_group with a; auto|].
    destruct a as [s|s r].
    + destruct s as [|i s].
      * apply ic_empty; [now left|]. intros w. rewrite says_group_iff, says_one_iff, says_nil_iff. tauto.
      * cbn [print_alts print_seq] in H2. rewrite app_length in H2.
        assert (Hs : s = SNil).
        { apply print_seq_nil. destruct (print_item i) as [|? l] eqn:Ei; [destruct (print_item_nonempty i Ei)|].
          destruct (print_seq s); [reflexivity|]. simpl in H2. lia. }
        subst s. destruct i as [w| |a].
        -- apply ic_word with w; [apply Hin|reflexivity|]. intros v.
           rewrite says_group_iff, says_one_iff, says_single, says_word_iff. tauto.
        -- apply ic_empty; [now right|]. intros v.
           rewrite says_group_iff, says_one_iff, says_single, says_empty_iff. tauto.
        -- exfalso. cbn [print_item] in H2. simpl in H2. rewrite app_length in H2. simpl in H2. lia.
    + exfalso. cbn [print_alts] in H2. rewrite app_length in H2. simpl in H2.
      assert (Hs : s = SNil) by (apply print_seq_nil; destruct (print_seq s); [reflexivity|simpl in H2; lia]).
      assert (Hr : print_alts r = []) by (destruct (print_alts r); [reflexivity|simpl in H2; lia]).
      subst s. destruct r as [s|s r]; cbn [print_alts] in Hr.
      * apply print_seq_nil in Hr. subst. apply Hne. reflexivity.
      * apply app_eq_nil in Hr. destruct Hr. discriminate.
Qed.

Lemma good_add : forall st t, good st -> good (fst (add_token st t)).
Proof.
  intros st t [H1 H2]. split; [exact H1|]. intros a b H. cbn [add_token fst ps_toks]. rewrite app_length. simpl.
  specialize (H2 a b H). lia.
Qed.

Lemma add_token_parsed : forall st t st1 k, good st -> add_token st t = (st1, k) ->
  parsed st st1 {| vs_start := [k]; vs_end := [k]; vs_trav := false |} (fun w => w = [at_text t]).
Proof.
  intros st t st1 k Hg H. injection H as <- <-.
  assert (Hn : nxt (ps_links st) (len (ps_toks st)) = []).
  { destruct (nxt (ps_links st) (len (ps_toks st))) as [|y r] eqn:E; [reflexivity|exfalso].
    assert (He : edge (ps_links st) (len (ps_toks st)) y) by (unfold edge; rewrite E; now left).
    apply Hg in He. lia. }
  split; [split; [apply (good_add st t Hg)|]|].
  { intros y Hy. cbn [ps_toks] in Hy. rewrite app_length in Hy. cbn [List.length] in Hy.
    assert (y = len (ps_toks st)) by lia. subst y. cbn [vs_start vs_end]. split.
    - exists (len (ps_toks st)), []. split; [now left|]. split; [exact I|reflexivity].
    - exists []. split; [exact I|now left]. }
  cbn [ps_toks vs_start vs_end]. rewrite app_length. cbn [List.length].
  split; [split; [eexists; reflexivity|reflexivity]|].
  split; [intros y [<-|[]]; lia|]. split; [intros y [<-|[]]; lia|].
  assert (Ht : text_of {| ps_toks := ps_toks st ++ [t]; ps_links := ps_links st |} (len (ps_toks st)) = at_text t).
  { unfold text_of. cbn [ps_toks]. rewrite app_nth2 by lia. rewrite Nat.sub_diag. reflexivity. }
  intros w. split.
  - intros (a & l & [<-|[]] & Hw & _ & Hm). destruct l as [|b l].
    + simpl in Hm. rewrite Ht in Hm. subst w. split; [discriminate|reflexivity].
    + destruct Hw as [Hw _]. unfold edge in Hw. cbn [ps_links] in Hw. rewrite Hn in Hw. destruct Hw.
  - intros [_ ->]. exists (len (ps_toks st)), []. split; [now left|]. split; [exact I|]. split; [now left|].
    simpl. rewrite Ht. reflexivity.
Qed.

Lemma inv_start : forall st out, good st -> vs_start out = [] -> vs_end out = [] ->
  inv st st true None out (fun w => w = []).
Proof.
  intros st out Hg E1 E2. split; [|split; [tauto|split; [eauto|auto]]].
  split; [split; [exact Hg|intros t Ht; lia]|]. split; [apply ext_refl|].
  rewrite E1, E2. split; [intros y []|]. split; [intros y []|]. intros w. split.
  - intros (a & l & [] & _).
  - tauto.
Qed.

Section Items.
Variables (P : list string -> pstate -> res (pstate * vseg)) (x : extended) (opt : bool).

Definition group_ok (i : item) : Prop :=
  match i with
  | IGroup a => 2 <= len (print_alts a) -> forall st, good st -> exists st' v,
      P (print_alts a) st = Ok (st', v) /\ parsed st st' v (says_alts a) /\ (vs_trav v = true <-> says_alts a [])
  | _ => True
  end.

Lemma make_token_text : forall n i w, at_text (make_token x opt n i w) = w.
Proof. intros n i w. unfold make_token. destruct x as [[a b]|]; [destruct (n =? 1)|]; reflexivity. Qed.

Lemma loop_many : forall n st0 s i st isfirst prec out L, n <> 1 ->
  ok_seq s -> (forall j, In j (items s) -> group_ok j) ->
  inv st0 st isfirst prec out L ->
  exists st' out' f' p', seq_loop P x opt n i (map content (items s)) st isfirst prec out = Ok (st', out') /\
    inv st0 st' f' p' out' (cat L (says_seq s)) /\ vs_trav out' = vs_trav out.
Proof.
  intros n st0. induction s as [|i s IH]; intros k st isfirst prec out L Hn Hok Hgr Hinv.
  - exists st, out, isfirst, prec. split; [reflexivity|]. split; [|reflexivity].
    eapply inv_equiv; [|exact Hinv]. intros w. unfold cat. split.
    + intros H. exists w, []. rewrite app_nil_r. split; [reflexivity|]. split; [exact H|constructor].
    + intros (w1 & w2 & -> & H1 & H2). apply says_nil_iff in H2. subst. rewrite app_nil_r. exact H1.
  - destruct Hok as [Hi Hs]. cbn [items map].
    assert (Hgr' : forall j, In j (items s) -> group_ok j) by (intros; apply Hgr; now right).
    assert (Hn1 : (n =? 1) = false) by (apply Nat.eqb_neq; exact Hn).
    assert (Hassoc : forall Li, (forall w, says_item i w <-> Li w) -> forall w,
              cat (cat L Li) (says_seq s) w <-> cat L (says_seq (SCons i s)) w).
    { intros Li HLi w. split.
      - intros (w1 & w2 & -> & (u1 & u2 & -> & H1 & H2) & H3). exists u1, (u2 ++ w2). rewrite app_assoc.
        split; [reflexivity|]. split; [exact H1|]. constructor; [apply HLi; exact H2|exact H3].
      - intros (w1 & w2 & -> & H1 & H2). apply says_cons_iff in H2. destruct H2 as (u1 & u2 & -> & H2 & H3).
        exists (w1 ++ u1), u2. rewrite app_assoc. split; [reflexivity|]. split; [|exact H3].
        exists w1, u1. split; [reflexivity|]. split; [exact H1|apply HLi; exact H2]. }
    destruct (item_cases i Hi) as [a Ea H2|Hc Hsay|u Hu Hc Hsay].
    + subst i. cbn [content] in *.
      destruct (print_alts a) as [|w1 [|w2 wr]] eqn:Ep; [simpl in H2; lia|simpl in H2; lia|].
      rewrite <- Ep in *.
      assert (Hgi : group_ok (IGroup a)) by (apply Hgr; now left).
      destruct Hinv as (Hpar & Hrest).
      destruct (Hgi H2 st (proj1 (proj1 Hpar))) as (st1 & v & E1 & Hp1 & Ht1).
      destruct (add_step st1 isfirst prec out v) as [[[st2 f2] p2] o2] eqn:Es.
      destruct (step_inv _ _ _ _ _ _ _ _ _ _ _ _ _ (conj Hpar Hrest) Hp1 Ht1 (says_alts_some a) Es) as [Hinv2 Htr2].
      destruct (IH (S k) st2 f2 p2 o2 _ Hn Hs Hgr' Hinv2) as (st' & out' & f' & p' & E' & Hinv' & Htr').
      exists st', out', f', p'. split.
      * cbn [seq_loop]. rewrite Ep. rewrite <- Ep. rewrite E1. cbn [rbind]. rewrite Hn1, andb_false_r. rewrite Es. exact E'.
      * split; [|congruence]. eapply inv_equiv; [|exact Hinv']. apply Hassoc. intros w. apply says_group_iff.
    + assert (El : seq_loop P x opt n k (content i :: map content (items s)) st isfirst prec out =
                   seq_loop P x opt n (S k) (map content (items s)) st isfirst prec out).
      { cbn [seq_loop]. destruct Hc as [-> | ->]; [|change (String.eqb "@" "" || String.eqb "@" "@") with true];
          cbn [orb String.eqb]; rewrite Hn1; reflexivity. }
      rewrite El. destruct (IH (S k) st isfirst prec out L Hn Hs Hgr' Hinv) as (st' & out' & f' & p' & E' & Hinv' & Htr').
      exists st', out', f', p'. split; [exact E'|]. split; [|exact Htr'].
      eapply inv_equiv; [|exact Hinv']. intros w. rewrite <- (Hassoc (fun w => w = []) Hsay w). unfold cat. split.
      * intros (w1 & w2 & -> & H1 & H2). exists w1, w2. split; [reflexivity|]. split; [|exact H2].
        exists w1, []. rewrite app_nil_r. auto.
      * intros (w1 & w2 & -> & (u1 & u2 & -> & H1 & ->) & H2). exists u1, w2. rewrite app_nil_r. auto.
    + destruct (add_token st (make_token x opt n k u)) as [st1 t] eqn:Et.
      destruct (add_step st1 isfirst prec out {| vs_start := [t]; vs_end := [t]; vs_trav := false |}) as [[[st2 f2] p2] o2] eqn:Es.
      pose proof (add_token_parsed st _ st1 t (proj1 (proj1 (proj1 Hinv))) Et) as Hp1. rewrite make_token_text in Hp1.
      assert (Ht1 : vs_trav {| vs_start := [t]; vs_end := [t]; vs_trav := false |} = true <-> (fun w => w = [u]) []).
      { cbn [vs_trav]. split; discriminate. }
      destruct (step_inv _ _ _ _ _ _ _ _ _ _ _ _ _ Hinv Hp1 Ht1 (ex_intro _ [u] eq_refl) Es) as [Hinv2 Htr2].
      destruct (IH (S k) st2 f2 p2 o2 _ Hn Hs Hgr' Hinv2) as (st' & out' & f' & p' & E' & Hinv' & Htr').
      exists st', out', f', p'. split.
      * cbn [seq_loop]. rewrite Hc. destruct (plain_eqb u Hu) as (_ & _ & _ & E4 & E5). rewrite E4, E5. cbn [orb].
        rewrite Et, Es. exact E'.
      * split; [|congruence]. eapply inv_equiv; [|exact Hinv']. apply Hassoc. exact Hsay.
Qed.

Lemma loop_seq : forall s st, ok_seq s -> (forall j, In j (items s) -> group_ok j) -> good st ->
  let words := tokenise_words (print_seq s) in
  exists st' out, seq_loop P x opt (len words) 0 words st true None empty_vseg = Ok (st', out) /\
    parsed st st' out (says_seq s) /\ (solid s -> (vs_trav out = true <-> says_seq s [])).
Proof.
  intros s st Hok Hgr Hg. cbn zeta. rewrite tokenise_print by (apply ok_pl; exact Hok).
  assert (Hempty : forall out, vs_start out = [] -> vs_end out = [] -> parsed st st out (fun w => w = [])).
  { intros out E1 E2. apply (inv_start st out Hg E1 E2). }
  destruct s as [|i s].
  - cbn. do 2 eexists. split; [reflexivity|]. cbn [vs_trav]. split; [|intros _; split; [constructor|reflexivity]].
    eapply parsed_equiv; [|apply Hempty; reflexivity]. intros w. symmetry. apply says_nil_iff.
  - destruct s as [|i2 s2].
    + cbn [items map List.length]. destruct Hok as [Hi _].
      destruct (item_cases i Hi) as [a Ea H2|Hc Hsay|u Hu Hc Hsay].
      * subst i. cbn [content] in *. destruct (print_alts a) as [|w1 [|w2 wr]] eqn:Ep; [simpl in H2; lia|simpl in H2; lia|].
        rewrite <- Ep in *. assert (Hgi : group_ok (IGroup a)) by (apply Hgr; now left).
        destruct (Hgi H2 st Hg) as (st1 & v & E1 & Hp1 & Ht1).
        set (out1 := if vs_trav v && (1 =? 1) then set_trav empty_vseg else empty_vseg).
        destruct (add_step st1 true None out1 v) as [[[st2 f2] p2] o2] eqn:Es.
        assert (Hi1 : inv st st true None out1 (fun w => w = [])).
        { apply inv_start; [exact Hg| |]; unfold out1; destruct (vs_trav v && (1 =? 1)); reflexivity. }
        destruct (step_inv _ _ _ _ _ _ _ _ _ _ _ _ _ Hi1 Hp1 Ht1 (says_alts_some a) Es) as [Hinv2 Htr2].
        exists st2, o2. split.
        { cbn [seq_loop]. rewrite Ep. rewrite <- Ep. rewrite E1. cbn [rbind]. fold out1. rewrite Es. reflexivity. }
        split.
        { eapply parsed_equiv; [|exact (proj1 Hinv2)]. intros w. rewrite says_single, says_group_iff. split.
          - intros (u1 & u2 & -> & -> & H). exact H.
          - intros H. exists [], w. auto. }
        intros _. rewrite Htr2, says_single, says_group_iff, <- Ht1. unfold out1. rewrite Nat.eqb_refl, andb_true_r.
        destruct (vs_trav v); reflexivity.
      * exists st, {| vs_start := []; vs_end := []; vs_trav := true |}. split.
        { cbn [seq_loop]. destruct Hc as [-> | ->]; reflexivity. }
        split; [|intros _; cbn [vs_trav]; rewrite says_single, Hsay; tauto].
        eapply parsed_equiv; [|apply Hempty; reflexivity]. intros w. rewrite says_single, Hsay. tauto.
      * destruct (add_token st (make_token x opt 1 0 u)) as [st1 t] eqn:Et.
        pose proof (add_token_parsed st _ st1 t Hg Et) as Hp1. rewrite make_token_text in Hp1.
        exists st1, {| vs_start := [t]; vs_end := [t]; vs_trav := false |}. split.
        { cbn [seq_loop]. rewrite Hc. destruct (plain_eqb u Hu) as (_ & _ & _ & E4 & E5). rewrite E4, E5. cbn [orb].
          rewrite Et. reflexivity. }
        split; [|intros _; cbn [vs_trav]; rewrite says_single, Hsay; split; discriminate].
        eapply parsed_equiv; [|exact Hp1]. intros w. rewrite says_single, Hsay. tauto.
    + destruct (loop_many (len (map content (items (SCons i (SCons i2 s2))))) st (SCons i (SCons i2 s2)) 0 st true None empty_vseg (fun w => w = []))
        as (st' & out' & f' & p' & E' & Hinv' & Htr').
      { cbn [items map List.length]. lia. }
      { exact Hok. } { exact Hgr. } { apply inv_start; [exact Hg|reflexivity|reflexivity]. }
      exists st', out'. split; [exact E'|]. split.
      * eapply parsed_equiv; [|exact (proj1 Hinv')]. intros w. split.
        -- intros (u1 & u2 & -> & -> & H). exact H.
        -- intros H. exists [], w. auto.
      * intros [Hs|Hs]; [cbn [seq_len] in Hs; lia|]. rewrite Htr'. cbn [empty_vseg vs_trav]. split; [discriminate|tauto].
Qed.
End Items.

(** ** The whole parser *)
Definition seq_good (x : extended) (opt : bool) (s : seqn) : Prop :=
  ok_seq s -> forall fuel st, len (print_seq s) < fuel -> good st ->
  exists st' v, parse fuel x opt (print_seq s) st = Ok (st', v) /\
    parsed st st' v (says_seq s) /\ (solid s -> (vs_trav v = true <-> says_seq s [])).

Lemma each_good : forall x opt f l st0 st out L, good st0 ->
  parsed st0 st out L ->
  (forall s, In s l -> seq_good x opt s /\ ok_seq s /\ len (print_seq s) < f) ->
  exists st' v, each_loop (parse f x opt) (map print_seq l) st out = Ok (st', v) /\
    parsed st0 st' v (fun w => L w \/ exists s, In s l /\ says_seq s w) /\
    ((forall s, In s l -> solid s) -> (vs_trav v = true <-> vs_trav out = true \/ exists s, In s l /\ says_seq s [])).
Proof.
  intros x opt f. induction l as [|s l IH]; intros st0 st out L Hg0 HP Hl.
  - exists st, out. split; [reflexivity|]. split.
    + eapply parsed_equiv; [|exact HP]. intros w. split; [auto|]. intros [H|(s & [] & _)]. exact H.
    + intros _. split; [auto|]. intros [H|(s & [] & _)]. exact H.
  - destruct (Hl s (or_introl eq_refl)) as (Hsg & Hok & Hf).
    destruct (Hsg Hok f st Hf (proj1 (proj1 HP))) as (st1 & v & E1 & HV & Ht).
    destruct HP as ((Hg & Hfu) & He & Hs & Hen & Hsp). destruct HV as ((Hg1 & Hfu1) & He1 & Hs1 & Hen1 & Hsp1).
    pose proof (ext_len _ _ He) as Hle. pose proof (ext_len _ _ He1) as Hle1.
    set (out1 := {| vs_start := vs_start out ++ vs_start v; vs_end := vs_end out ++ vs_end v;
                    vs_trav := if vs_trav v then true else vs_trav out |}).
    destruct (IH st0 st1 out1 (fun w => L w \/ says_seq s w)) as (st' & v' & E' & HP' & Ht').
    { exact Hg0. }
    { split; [split; [exact Hg1|]|].
      { intros t Ht0. unfold out1. cbn [vs_start vs_end]. destruct (le_lt_dec (len (ps_toks st)) t) as [Hhi|Hlo].
        - destruct (Hfu1 t (conj Hhi (proj2 Ht0))) as [(g & k & Hg' & Hw & Hk) (k' & Hw' & Hk')]. split.
          + exists g, k. split; [apply in_or_app; auto|auto].
          + exists k'. split; [exact Hw'|apply in_or_app; auto].
        - destruct (Hfu t (conj (proj1 Ht0) Hlo)) as [(g & k & Hg' & Hw & Hk) (k' & Hw' & Hk')].
          assert (Hlow : forall a k, a < len (ps_toks st) -> walk (ps_links st) a k -> walk (ps_links st1) a k).
          { intros a k0 Ha Hwk. apply (walk_above st st1 He1); [|exact Hwk]. apply (walk_below st st Hg (ext_refl st)); assumption. }
          split.
          + exists g, k. split; [apply in_or_app; auto|]. split; [|exact Hk]. apply Hlow; [apply Hs in Hg'; lia|exact Hw].
          + exists k'. split; [apply Hlow; assumption|apply in_or_app; auto]. }
      split; [eapply ext_trans; eassumption|].
      split; [apply within_app; [eapply within_weak; [exact Hs|lia|lia]|eapply within_weak; [exact Hs1|lia|lia]]|].
      split; [apply within_app; [eapply within_weak; [exact Hen|lia|lia]|eapply within_weak; [exact Hen1|lia|lia]]|].
      intros w. unfold out1. cbn [vs_start vs_end].
      assert (HPs : within 0 (len (ps_toks st)) (vs_start out)) by (eapply within_weak; [exact Hs|lia|lia]).
      assert (HPe : within 0 (len (ps_toks st)) (vs_end out)) by (eapply within_weak; [exact Hen|lia|lia]).
      rewrite (side_by_side st st1 (vs_start out) (vs_end out) (vs_start v) (vs_end v) Hg Hg1 He1 HPs HPe Hs1 Hen1 w).
      rewrite Hsp, Hsp1. tauto. }
    { intros s' Hs'. apply Hl. now right. }
    exists st', v'. split.
    { cbn [map each_loop]. rewrite E1. cbn [rbind]. exact E'. }
    split.
    + eapply parsed_equiv; [|exact HP']. intros w. split.
      * intros [[H|H]|(s' & Hs' & H)]; [auto|right; exists s; split; [now left|exact H]|].
        right. exists s'. split; [now right|exact H].
      * intros [H|(s' & [<-|Hs'] & H)]; [auto|auto|]. right. exists s'. auto.
    + intros Hsol. rewrite Ht' by (intros s' Hs'; apply Hsol; now right). unfold out1. cbn [vs_trav].
      specialize (Ht (Hsol s (or_introl eq_refl))). destruct (vs_trav v).
      * split; [intros _; right; exists s; split; [now left|apply Ht; reflexivity]|auto].
      * split.
        -- intros [H|(s' & Hs' & H)]; [auto|]. right. exists s'. split; [now right|exact H].
        -- intros [H|(s' & [<-|Hs'] & H)]; [auto| |right; exists s'; auto]. apply Ht in H. discriminate.
Qed.

Lemma says_alts_iff : forall a w, says_alts a w <-> exists s, In s (seqs a) /\ says_seq s w.
Proof.
  induction a as [s|s a IH]; intros w; cbn [seqs].
  - rewrite says_one_iff. split; [intros H; exists s; split; [now left|exact H]|]. intros (s' & [<-|[]] & H). exact H.
  - split.
    + intros H. inversion H as [|? ? ? H0|? ? ? H0]; subst; [exists s; split; [now left|assumption]|].
      apply IH in H0. destruct H0 as (s' & Hs' & H0). exists s'. split; [now right|exact H0].
    + intros (s' & [<-|Hs'] & H); [apply says_here; exact H|]. apply says_later. apply IH. exists s'. auto.
Qed.

Lemma seqs_len : forall a s, In s (seqs a) -> len (print_seq s) <= len (print_alts a) /\
  (match a with AMore _ _ => len (print_seq s) < len (print_alts a) | _ => True end).
Proof.
  induction a as [s0|s0 a IH]; intros s H; cbn [seqs print_alts] in *.
  - destruct H as [<-|[]]. auto.
  - rewrite app_length. cbn [List.length]. destruct H as [<-|H]; [lia|]. destruct (IH s H). lia.
Qed.

Lemma ok_line_seqs : forall a, ok_line a -> forall s, In s (seqs a) -> ok_seq s.
Proof.
  induction a as [s0|s0 a IH]; intros H s Hs; cbn [seqs ok_line] in *.
  - destruct Hs as [<-|[]]. exact H.
  - destruct H as [H1 H2]. destruct Hs as [<-|Hs]; auto.
Qed.
Lemma ok_inner_seqs : forall a, ok_inner a -> ok_line a /\ forall s, In s (seqs a) -> solid s.
Proof.
  induction a as [s0|s0 a IH]; intros H; cbn [seqs ok_line ok_inner] in *.
  - split; [apply H|]. intros s [<-|[]]. apply H.
  - destruct H as [[H1 H2] H3]. destruct (IH H3) as [H4 H5]. split; [auto|]. intros s [<-|Hs]; auto.
Qed.
Lemma ok_line_pl : forall a, ok_line a -> pl_alts a.
Proof. induction a; simpl; intros H; [apply ok_pl; exact H|]. split; [apply ok_pl; apply H|apply IHa; apply H]. Qed.

Lemma alts_good : forall x opt a, (forall s, In s (seqs a) -> seq_good x opt s) -> ok_line a ->
  forall fuel st, len (print_alts a) < fuel -> good st ->
  exists st' v, parse fuel x opt (print_alts a) st = Ok (st', v) /\
    parsed st st' v (says_alts a) /\
    ((forall s, In s (seqs a) -> solid s) -> (vs_trav v = true <-> says_alts a [])).
Proof.
  intros x opt a Hs Hok fuel st Hf Hg. destruct a as [s|s r].
  - cbn [print_alts seqs ok_line] in *. destruct (Hs s (or_introl eq_refl) Hok fuel st Hf Hg) as (st' & v & E & HP & Ht).
    exists st', v. split; [exact E|]. split.
    + eapply parsed_equiv; [|exact HP]. intros w. symmetry. apply says_one_iff.
    + intros Hsol. rewrite says_one_iff. apply Ht. apply Hsol. now left.
  - destruct fuel as [|f]; [lia|].
    destruct (each_good x opt f (seqs (AMore s r)) st st empty_vseg (fun _ => False) Hg) as (st' & v & E & HP & Ht).
    { split; [split; [exact Hg|intros t Ht; lia]|]. split; [apply ext_refl|]. split; [intros y []|]. split; [intros y []|].
      intros w. split; [intros (a0 & l & [] & _)|tauto]. }
    { intros s' Hs'. split; [apply Hs; exact Hs'|]. split; [apply (ok_line_seqs _ Hok); exact Hs'|].
      destruct (seqs_len _ _ Hs') as [_ H]. lia. }
    exists st', v. split.
    { rewrite parse_S. rewrite separate_print by (apply ok_line_pl; exact Hok).
      change (map print_seq (seqs (AMore s r))) with (print_seq s :: map print_seq (seqs r)) in *.
      destruct (map print_seq (seqs r)) eqn:Er; [destruct r; discriminate|]. exact E. }
    split.
    + eapply parsed_equiv; [|exact HP]. intros w. rewrite says_alts_iff. tauto.
    + intros Hsol. rewrite (Ht Hsol), says_alts_iff. cbn [empty_vseg vs_trav]. intuition discriminate.
Qed.

Lemma items_len : forall s a, In (IGroup a) (items s) -> len (print_alts a) + 2 <= len (print_seq s).
Proof.
  induction s as [|i s IH]; intros a H; [destruct H|]. cbn [items print_seq] in *. rewrite app_length. destruct H as [->|H].
  - cbn [print_item List.length]. rewrite app_length. simpl. lia.
  - specialize (IH a H). lia.
Qed.
Lemma ok_seq_items : forall s, ok_seq s -> forall i, In i (items s) -> ok_item i.
Proof.
  induction s as [|i0 s IH]; intros H i Hi; [destruct Hi|]. destruct H. destruct Hi as [<-|Hi]; auto.
Qed.

Lemma all_good : forall x opt,
  (forall i, match i with IGroup a => forall s, In s (seqs a) -> seq_good x opt s | _ => True end) /\
  (forall s, seq_good x opt s /\ forall a, In (IGroup a) (items s) -> forall s', In s' (seqs a) -> seq_good x opt s') /\
  (forall a s, In s (seqs a) -> seq_good x opt s).
Proof.
  intros x opt.
  apply (alt_mutind (fun i => match i with IGroup a => forall s, In s (seqs a) -> seq_good x opt s | _ => True end)
     (fun s => seq_good x opt s /\ forall a, In (IGroup a) (items s) -> forall s', In s' (seqs a) -> seq_good x opt s')
     (fun a => forall s, In s (seqs a) -> seq_good x opt s)).
  - exact (fun _ => I).
  - exact I.
  - intros a H. exact H.
  - split; [|intros a []].
    intros Hok fuel st Hf Hg. destruct fuel as [|f]; [simpl in Hf; lia|]. rewrite parse_S.
    pose proof (separate_print (AOne SNil) I) as E. cbn [print_alts seqs map] in E. rewrite E.
    apply (loop_seq (parse f x opt) x opt SNil st Hok); [intros j []|exact Hg].
  - intros i Hi s [Hs1 Hs2]. 
    assert (Hgroups : forall a, In (IGroup a) (items (SCons i s)) -> forall s', In s' (seqs a) -> seq_good x opt s').
    { intros a [->|H]; [exact Hi|apply Hs2; exact H]. }
    split; [|exact Hgroups]. intros Hok fuel st Hf Hg. destruct fuel as [|f]; [lia|]. rewrite parse_S.
    pose proof (separate_print (AOne (SCons i s))) as E. cbn [print_alts seqs map pl_alts] in E.
    rewrite E by (apply ok_pl; exact Hok). clear E.
    apply (loop_seq (parse f x opt) x opt (SCons i s) st Hok); [|exact Hg].
    intros j Hj. destruct j as [w| |a]; [exact I|exact I|]. intros H2 st1 Hg1.
    pose proof (ok_seq_items _ Hok _ Hj) as [_ Hin]. destruct (ok_inner_seqs a Hin) as [Hline Hsol].
    destruct (alts_good x opt a (Hgroups a Hj) Hline f st1) as (st' & v & E & HP & Ht).
    { pose proof (items_len _ _ Hj). lia. }
    { exact Hg1. }
    exists st', v. split; [exact E|]. split; [exact HP|]. apply Ht. exact Hsol.
  - intros s [Hs _] s' [<-|[]]. exact Hs.
  - intros s [Hs _] a Ha s' [<-|H]; auto.
Qed.

Theorem parse_correct : forall x opt a fuel st, ok_line a -> len (print_alts a) < fuel -> good st ->
  exists st' v, parse fuel x opt (print_alts a) st = Ok (st', v) /\
    parsed st st' v (says_alts a) /\ (ok_inner a -> (vs_trav v = true <-> says_alts a [])).
Proof.
  intros x opt a fuel st Hok Hf Hg.
  destruct (alts_good x opt a (fun s => proj2 (proj2 (all_good x opt)) a s) Hok fuel st Hf Hg) as (st' & v & E & HP & Ht).
  exists st', v. split; [exact E|]. split; [exact HP|]. intros Hin. apply Ht. apply (ok_inner_seqs a Hin).
Qed.
