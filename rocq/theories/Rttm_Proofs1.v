(** Proofs about the parsing of a text beside other tokens. *)
From Coq Require Import String List NArith ZArith Arith Bool Ascii Lia Sorted.
From Verif Require Import Base Store_Model Segm_Model Graph_Model Links_Model Links_Spec Links_Proofs Token_Model Alt_Model Alt_Spec Alt_Proofs Alt_Proofs2 AsTrn_Model AsStm_Model Rttm_Model Rttm_Spec.
Import ListNotations.
Local Open Scope res_scope.
Local Notation length := List.length.

(** ** What parsing leaves alone *)
(** Two states that differ in the links of tokens before [n] only *)
Definition alike (n : nat) (a b : pstate) : Prop :=
  ps_toks a = ps_toks b /\ n <= length (ps_toks a) /\ forall t, n <= t -> nxt (ps_links a) t = nxt (ps_links b) t /\ prc (ps_links a) t = prc (ps_links b) t.
Definition low_same (n : nat) (a b : pstate) : Prop := forall t, t < n -> nxt (ps_links a) t = nxt (ps_links b) t /\ prc (ps_links a) t = prc (ps_links b) t.
Definition tok_ok (x : extended) (opt : bool) (t : atok) : Prop :=
  at_opt t = opt /\ match x with None => True | Some (b, e) => (b <= e)%Z -> (b <= at_start t)%Z /\ (at_start t + at_dur t <= e)%Z end.
Definition list_ok (lo hi : nat) (l : list nat) : Prop := NoDup l /\ forall t, In t l -> lo <= t < hi.
Lemma list_ok_app lo mid hi a b : lo <= mid <= hi -> list_ok lo mid a -> list_ok mid hi b -> list_ok lo hi (a ++ b).
Proof.
  intros L (N1 & A) (N2 & B). split.
  - clear L. induction a as [|x a IH]; [exact N2|]. cbn [app]. inversion N1 as [|? ? NI N1']; subst. constructor; [|apply IH; [exact N1'|intros t Ht; apply A; right; exact Ht]]. intros K. apply in_app_iff in K. destruct K as [K|K]; [exact (NI K)|]. specialize (A x (or_introl eq_refl)). specialize (B x K). lia.
  - intros t Ht. apply in_app_iff in Ht. destruct Ht as [Ht|Ht]; [specialize (A t Ht)|specialize (B t Ht)]; lia.
Qed.
Lemma list_ok_wide lo lo' hi hi' l : lo' <= lo -> hi <= hi' -> list_ok lo hi l -> list_ok lo' hi' l.
Proof. intros A B (N & H). split; [exact N|]. intros t Ht. specialize (H t Ht). lia. Qed.
Lemma attach_alike n a b es ss : alike n a b -> (forall t, In t es -> n <= t) -> (forall t, In t ss -> n <= t) ->
  alike n (attach_to a es ss) (attach_to b es ss) /\ low_same n b (attach_to b es ss).
Proof.
  intros (T & L & H) HE HS. unfold attach_to. unfold alike, low_same. cbn [ps_toks ps_links].
  assert (K : forall es ha hb, (forall t, In t es -> n <= t) -> (forall t, n <= t -> nxt ha t = nxt hb t /\ prc ha t = prc hb t) ->
    (forall t, n <= t -> nxt (attach ha es ss) t = nxt (attach hb es ss) t /\ prc (attach ha es ss) t = prc (attach hb es ss) t)
    /\ (forall t, t < n -> nxt (attach hb es ss) t = nxt hb t /\ prc (attach hb es ss) t = prc hb t)).
  { clear - HS. unfold attach. induction es as [|e es IH]; intros ha hb HE H; cbn [fold_left]; [split; [exact H|auto]|].
    assert (J : forall ss ha hb, (forall t, In t ss -> n <= t) -> n <= e -> (forall t, n <= t -> nxt ha t = nxt hb t /\ prc ha t = prc hb t) ->
      let f := fun h f => add_prec (add_next h e f) f e in
      (forall t, n <= t -> nxt (fold_left f ss ha) t = nxt (fold_left f ss hb) t /\ prc (fold_left f ss ha) t = prc (fold_left f ss hb) t)
      /\ (forall t, t < n -> nxt (fold_left f ss hb) t = nxt hb t /\ prc (fold_left f ss hb) t = prc hb t)).
    { clear. induction ss as [|s ss IH]; intros ha hb HS HE H f; cbn [fold_left]; [split; [exact H|auto]|].
      assert (NS : n <= s) by (apply HS; left; reflexivity). subst f. cbv zeta in IH.
      destruct (IH (add_prec (add_next ha e s) s e) (add_prec (add_next hb e s) s e)) as (A & B); [intros t Ht; apply HS; right; exact Ht|exact HE| |].
      - intros t Ht. unfold add_prec, add_next, upd. cbn [nxt prc]. split.
        + destruct (Nat.eqb_spec t e) as [->|]; [rewrite (proj1 (H e HE)); reflexivity|apply H, Ht].
        + destruct (Nat.eqb_spec t s) as [->|]; [rewrite (proj2 (H s NS)); reflexivity|apply H, Ht].
      - split; [exact A|]. intros t Ht. specialize (B t Ht). rewrite (proj1 B), (proj2 B). unfold add_prec, add_next, upd. cbn [nxt prc]. destruct (Nat.eqb_spec t e); [lia|]. destruct (Nat.eqb_spec t s); [lia|]. auto. }
    destruct (J ss ha hb HS (HE e (or_introl eq_refl)) H) as (A & B). destruct (IH _ _ (fun t Ht => HE t (or_intror Ht)) A) as (A2 & B2). split; [exact A2|]. intros t Ht. rewrite (proj1 (B2 t Ht)), (proj2 (B2 t Ht)). apply B, Ht. }
  destruct (K es (ps_links a) (ps_links b) HE H) as (A & B). split; [split; [exact T|split; [exact L|exact A]]|]. intros t Ht. destruct (B t Ht). auto.
Qed.
Lemma low_trans n a b c : low_same n a b -> low_same n b c -> low_same n a c.
Proof. intros H K t Ht. destruct (H t Ht) as (A & B). destruct (K t Ht) as (C & D). split; congruence. Qed.

Section Frame.
Variables (x : extended) (opt : bool) (n : nat).
(** What a parser does does not depend on the links of tokens before [n]. *)
Definition framed (P : list string -> pstate -> res (pstate * vseg)) : Prop :=
  forall ws a b a' v, alike n a b -> P ws a = Ok (a', v) ->
    exists b' new, P ws b = Ok (b', v) /\ alike n a' b' /\ low_same n b b' /\ ps_toks a' = ps_toks a ++ new /\ Forall (tok_ok x opt) new
      /\ list_ok (length (ps_toks a)) (length (ps_toks a')) (vs_start v) /\ list_ok (length (ps_toks a)) (length (ps_toks a')) (vs_end v).
Lemma make_ok k i w : i < k -> tok_ok x opt (make_token x opt k i w).
Proof.
  intros L. unfold make_token, tok_ok. destruct x as [(b, e)|]; [|split; [reflexivity|exact I]]. destruct (Nat.eqb_spec k 1) as [->|NE]; cbn [at_opt at_start at_dur]; (split; [reflexivity|]); [lia|].
  intros LE. set (d := Z.quot (e - b) (Z.of_nat k)). assert (D : (0 <= d)%Z) by (apply Z.quot_pos; lia). assert (U : (Z.of_nat k * d <= e - b)%Z) by (apply Z.mul_quot_le; lia). nia.
Qed.
Definition sane (lo : nat) (a : pstate) (prec : option (list nat)) (out : vseg) : Prop :=
  match prec with Some p => forall t, In t p -> n <= t | None => True end
  /\ list_ok lo (length (ps_toks a)) (vs_start out) /\ list_ok lo (length (ps_toks a)) (vs_end out) /\ n <= lo <= length (ps_toks a).
Lemma step_framed lo a a1 b1 f prec out toks : alike n a1 b1 -> sane lo a prec out -> length (ps_toks a) <= length (ps_toks a1) ->
  list_ok (length (ps_toks a)) (length (ps_toks a1)) (vs_start toks) -> list_ok (length (ps_toks a)) (length (ps_toks a1)) (vs_end toks) ->
  exists a2 b2 f2 p2 o2, add_step a1 f prec out toks = (a2, f2, p2, o2) /\ add_step b1 f prec out toks = (b2, f2, p2, o2)
    /\ alike n a2 b2 /\ low_same n b1 b2 /\ sane lo a2 p2 o2 /\ ps_toks a2 = ps_toks a1.
Proof.
  intros AL (SP & SO & SE & LO) LE LS LE2. unfold add_step. cbv zeta. do 5 eexists. split; [reflexivity|]. split; [reflexivity|].
  assert (B : alike n (match prec with Some pe => attach_to a1 pe (vs_start toks) | None => a1 end) (match prec with Some pe => attach_to b1 pe (vs_start toks) | None => b1 end)
    /\ low_same n b1 (match prec with Some pe => attach_to b1 pe (vs_start toks) | None => b1 end)).
  { destruct prec as [pe|]; [|split; [exact AL|intros t _; auto]]. apply attach_alike; [exact AL|exact SP|]. intros t Ht. destruct LS as (_ & LS). specialize (LS t Ht). lia. }
  assert (T : ps_toks (match prec with Some pe => attach_to a1 pe (vs_start toks) | None => a1 end) = ps_toks a1) by (destruct prec; reflexivity).
  split; [apply B|]. split; [apply B|]. split; [|exact T]. unfold sane. rewrite T. cbn [vs_start vs_end]. split; [|split; [|split; [|lia]]].
  - assert (E : forall t, In t (vs_end toks) -> n <= t) by (intros t Ht; destruct LE2 as (_ & K); specialize (K t Ht); lia). destruct (vs_trav toks); [|exact E]. destruct prec as [pe|]; [|exact E]. intros t Ht. apply in_app_iff in Ht. destruct Ht; auto.
  - destruct f; [|apply (list_ok_wide lo lo (length (ps_toks a))); [lia|lia|exact SO]]. apply (list_ok_app lo (length (ps_toks a))); [lia|exact SO|exact LS].
  - destruct (vs_trav toks); cbn [negb app]; [apply (list_ok_app lo (length (ps_toks a))); [lia|exact SE|exact LE2]|]. apply (list_ok_wide (length (ps_toks a)) lo (length (ps_toks a1))); [lia|lia|exact LE2].
Qed.
Lemma list_ok_one (a : pstate) w : list_ok (length (ps_toks a)) (length (ps_toks a ++ [w])) [length (ps_toks a)].
Proof. split; [constructor; [intros []|constructor]|]. intros t [<-|[]]. rewrite app_length. cbn. lia. Qed.
Lemma list_ok_nil lo hi : list_ok lo hi [].
Proof. split; [constructor|intros t []]. Qed.
Lemma seq_framed P k : framed P -> forall l i lo a b f prec out a' v, i + length l = k -> alike n a b -> sane lo a prec out ->
  seq_loop P x opt k i l a f prec out = Ok (a', v) ->
  exists b' new, seq_loop P x opt k i l b f prec out = Ok (b', v) /\ alike n a' b' /\ low_same n b b' /\ ps_toks a' = ps_toks a ++ new /\ Forall (tok_ok x opt) new
    /\ list_ok lo (length (ps_toks a')) (vs_start v) /\ list_ok lo (length (ps_toks a')) (vs_end v).
Proof.
  intros FP. induction l as [|w l IH]; intros i lo a b f prec out a' v LK AL SA E.
  - cbn [seq_loop] in *. injection E as <- <-. exists b, []. rewrite app_nil_r. destruct SA as (_ & S1 & S2 & _). split; [reflexivity|]. split; [exact AL|]. split; [intros t _; auto|]. auto.
  - cbn [length] in LK.
    assert (STEP : forall a1 b1 out1 toks new1, alike n a1 b1 -> low_same n b b1 -> ps_toks a1 = ps_toks a ++ new1 -> Forall (tok_ok x opt) new1 ->
      vs_start out1 = vs_start out -> vs_end out1 = vs_end out ->
      list_ok (length (ps_toks a)) (length (ps_toks a1)) (vs_start toks) -> list_ok (length (ps_toks a)) (length (ps_toks a1)) (vs_end toks) ->
      (let '(st2, first2, prec2, out2) := add_step a1 f prec out1 toks in seq_loop P x opt k (S i) l st2 first2 prec2 out2) = Ok (a', v) ->
      exists b' new, (let '(st2, first2, prec2, out2) := add_step b1 f prec out1 toks in seq_loop P x opt k (S i) l st2 first2 prec2 out2) = Ok (b', v)
        /\ alike n a' b' /\ low_same n b b' /\ ps_toks a' = ps_toks a ++ new /\ Forall (tok_ok x opt) new /\ list_ok lo (length (ps_toks a')) (vs_start v) /\ list_ok lo (length (ps_toks a')) (vs_end v)).
    { intros a1 b1 out1 toks new1 A1 L1 T1 F1 O1 O2 LS LE2 E1. assert (SA1 : sane lo a prec out1) by (destruct SA as (X1 & X2 & X3 & X4); unfold sane; rewrite O1, O2; auto).
      destruct (step_framed lo a a1 b1 f prec out1 toks A1 SA1) as (a2 & b2 & f2 & p2 & o2 & EA & EB & A2 & L2 & S2 & T2); [rewrite T1, app_length; lia|exact LS|exact LE2|].
      rewrite EA in E1. rewrite EB. destruct (IH (S i) lo a2 b2 f2 p2 o2 a' v ltac:(lia) A2 S2 E1) as (b' & new & EE & AA & LL & TT & FF & R). exists b', (new1 ++ new). split; [exact EE|]. split; [exact AA|]. split; [exact (low_trans _ _ _ _ L1 (low_trans _ _ _ _ L2 LL))|].
      split; [rewrite TT, T2, T1, app_assoc; reflexivity|]. split; [apply Forall_app; auto|exact R]. }
    assert (WORD : forall u, (if String.eqb u EmptyString || String.eqb u "@" then
            if k =? 1 then let '(st2, first2, prec2, out2) := add_step a f prec (set_trav out) empty_vseg in seq_loop P x opt k (S i) l st2 first2 prec2 out2
            else seq_loop P x opt k (S i) l a f prec out
          else let '(st1, t) := add_token a (make_token x opt k i u) in
            let '(st2, first2, prec2, out2) := add_step st1 f prec out {| vs_start := [t]; vs_end := [t]; vs_trav := false |} in seq_loop P x opt k (S i) l st2 first2 prec2 out2) = Ok (a', v) ->
      exists b' new, (if String.eqb u EmptyString || String.eqb u "@" then
            if k =? 1 then let '(st2, first2, prec2, out2) := add_step b f prec (set_trav out) empty_vseg in seq_loop P x opt k (S i) l st2 first2 prec2 out2
            else seq_loop P x opt k (S i) l b f prec out
          else let '(st1, t) := add_token b (make_token x opt k i u) in
            let '(st2, first2, prec2, out2) := add_step st1 f prec out {| vs_start := [t]; vs_end := [t]; vs_trav := false |} in seq_loop P x opt k (S i) l st2 first2 prec2 out2) = Ok (b', v)
        /\ alike n a' b' /\ low_same n b b' /\ ps_toks a' = ps_toks a ++ new /\ Forall (tok_ok x opt) new /\ list_ok lo (length (ps_toks a')) (vs_start v) /\ list_ok lo (length (ps_toks a')) (vs_end v)).
    { intros u E1. destruct (String.eqb u EmptyString || String.eqb u "@").
      - destruct (k =? 1).
        + apply (STEP a b (set_trav out) empty_vseg []); [exact AL|intros t _; auto|rewrite app_nil_r; reflexivity|constructor|reflexivity|reflexivity|apply list_ok_nil|apply list_ok_nil|exact E1].
        + apply (IH (S i) lo a b f prec out a' v ltac:(lia) AL SA E1).
      - unfold add_token in *. destruct AL as (T & L & H). rewrite <- T.
        apply (STEP {| ps_toks := ps_toks a ++ [make_token x opt k i u]; ps_links := ps_links a |} {| ps_toks := ps_toks a ++ [make_token x opt k i u]; ps_links := ps_links b |} out {| vs_start := [length (ps_toks a)]; vs_end := [length (ps_toks a)]; vs_trav := false |} [make_token x opt k i u]).
        + split; [reflexivity|]. cbn [ps_toks ps_links]. rewrite app_length. split; [lia|exact H].
        + intros t _. auto.
        + reflexivity.
        + constructor; [apply make_ok; lia|constructor].
        + reflexivity.
        + reflexivity.
        + apply list_ok_one.
        + apply list_ok_one.
        + exact E1. }
    cbn [seq_loop] in *. destruct w as [|u [|u2 w]]; [exact (WORD EmptyString E)|exact (WORD u E)|].
    destruct (P (u :: u2 :: w) a) as [(a1, toks)| | |] eqn:EP; cbn [rbind] in E; try discriminate. destruct (FP _ _ _ _ _ AL EP) as (b1 & new1 & EB & A1 & L1 & T1 & F1 & LS & LE2). rewrite EB. cbn [rbind].
    apply (STEP a1 b1 _ toks new1 A1 L1 T1 F1); [destruct (vs_trav toks && (k =? 1)); reflexivity|destruct (vs_trav toks && (k =? 1)); reflexivity|exact LS|exact LE2|exact E].
Qed.
Lemma each_framed P : framed P -> forall l lo a b out a' v, alike n a b -> sane lo a None out ->
  each_loop P l a out = Ok (a', v) ->
  exists b' new, each_loop P l b out = Ok (b', v) /\ alike n a' b' /\ low_same n b b' /\ ps_toks a' = ps_toks a ++ new /\ Forall (tok_ok x opt) new
    /\ list_ok lo (length (ps_toks a')) (vs_start v) /\ list_ok lo (length (ps_toks a')) (vs_end v).
Proof.
  intros FP. induction l as [|w l IH]; intros lo a b out a' v AL SA E; cbn [each_loop] in *.
  - injection E as <- <-. exists b, []. rewrite app_nil_r. destruct SA as (_ & S1 & S2 & _). split; [reflexivity|]. split; [exact AL|]. split; [intros t _; auto|]. auto.
  - destruct (P w a) as [(a1, por)| | |] eqn:EP; cbn [rbind] in E; try discriminate. destruct (FP _ _ _ _ _ AL EP) as (b1 & new1 & EB & A1 & L1 & T1 & F1 & LS & LE2). rewrite EB. cbn [rbind].
    destruct SA as (_ & S1 & S2 & LO). assert (LL : length (ps_toks a) <= length (ps_toks a1)) by (rewrite T1, app_length; lia).
    assert (SA' : sane lo a1 None {| vs_start := vs_start out ++ vs_start por; vs_end := vs_end out ++ vs_end por; vs_trav := if vs_trav por then true else vs_trav out |}).
    { split; [exact I|]. cbn [vs_start vs_end]. split; [apply (list_ok_app lo (length (ps_toks a))); [lia|exact S1|exact LS]|]. split; [apply (list_ok_app lo (length (ps_toks a))); [lia|exact S2|exact LE2]|]. lia. }
    destruct (IH lo a1 b1 _ a' v A1 SA' E) as (b' & new & EE & AA & L2 & TT & FF & R).
    exists b', (new1 ++ new). split; [exact EE|]. split; [exact AA|]. split; [exact (low_trans _ _ _ _ L1 L2)|]. split; [rewrite TT, T1, app_assoc; reflexivity|]. split; [apply Forall_app; auto|exact R].
Qed.
Lemma parse_framed : forall f, framed (parse f x opt).
Proof.
  induction f as [|f IH]; intros ws a b a' v AL E; [discriminate|]. rewrite parse_S in *.
  assert (SA : sane (length (ps_toks a)) a None empty_vseg). { split; [exact I|]. split; [apply list_ok_nil|]. split; [apply list_ok_nil|]. destruct AL as (_ & L & _). lia. }
  destruct (separate_by_slash ws) as [|one [|two ors]]; [exact (each_framed _ IH _ _ _ _ _ _ _ AL SA E)| |exact (each_framed _ IH _ _ _ _ _ _ _ AL SA E)].
  exact (seq_framed _ _ IH _ 0 _ _ _ _ _ _ _ _ eq_refl AL SA E).
Qed.
End Frame.

(** ** Parsing beside other tokens *)
Definition wf (st : pstate) : Prop := mutual (ps_links st) /\ forall x y, edge (ps_links st) x y -> x < length (ps_toks st) /\ y < length (ps_toks st).
Lemma edge_prc h x y : mutual h -> edge h x y <-> In x (prc h y).
Proof. intros M. unfold edge. rewrite !(count_occ_In Nat.eq_dec). rewrite (M x y). reflexivity. Qed.
Lemma no_in_nil {A} (l : list A) : (forall x, ~ In x l) -> l = [].
Proof. destruct l as [|a l]; intros H; [reflexivity|]. destruct (H a). left. reflexivity. Qed.
Lemma wf_out st t : wf st -> length (ps_toks st) <= t -> nxt (ps_links st) t = [] /\ prc (ps_links st) t = [].
Proof.
  intros (M & B) L. split; apply no_in_nil; intros y Hy.
  - destruct (B t y Hy). lia.
  - apply (edge_prc _ _ _ M) in Hy. destruct (B y t Hy). lia.
Qed.
Lemma parse_beside x opt fuel a st : ok_line a -> length (print_alts a) < fuel -> wf st ->
  let n := length (ps_toks st) in
  exists st' v new, parse fuel x opt (print_alts a) st = Ok (st', v) /\ ps_toks st' = ps_toks st ++ new /\ Forall (tok_ok x opt) new /\ wf st'
    /\ (forall i j, edge (ps_links st') i j <-> (edge (ps_links st) i j /\ i < n /\ j < n) \/ (edge (ps_links st') i j /\ n <= i /\ n <= j))
    /\ (forall i, i < n -> nxt (ps_links st') i = nxt (ps_links st) i /\ prc (ps_links st') i = prc (ps_links st) i)
    /\ (forall i, ~ edge (ps_links st') i i \/ i < n)
    /\ list_ok n (length (ps_toks st')) (vs_start v) /\ list_ok n (length (ps_toks st')) (vs_end v)
    /\ (forall w, spells st' (vs_start v) (vs_end v) w <-> w <> [] /\ says_alts a w)
    /\ full n st' v.
Proof.
  intros OK LF W n. set (b := {| ps_toks := ps_toks st; ps_links := ps_links empty_state |}).
  assert (G : good b) by (split; [intros i j; reflexivity|intros i j []]).
  destruct (parse_correct x opt a fuel b OK LF G) as (b' & v & EB & ((GB & FU) & (EX & EN) & WS & WE & SP) & _).
  assert (AL : alike n b st). { split; [reflexivity|]. split; [unfold n, b; cbn [ps_toks]; lia|]. intros t Ht. destruct (wf_out st t W Ht) as (-> & ->). split; reflexivity. }
  destruct (parse_framed x opt n fuel _ _ _ _ _ AL EB) as (st' & new & ES & (T & _ & H) & LOW & TN & FT & LS & LE).
  assert (LB : length (ps_toks st') = length (ps_toks b')) by (rewrite T; reflexivity).
  assert (LN : n <= length (ps_toks st')) by (rewrite LB, TN, app_length; unfold n; cbn; lia).
  assert (E1 : forall i j, n <= i -> edge (ps_links st') i j <-> edge (ps_links b') i j). { intros i j Hi. unfold edge. rewrite (proj1 (H i Hi)). reflexivity. }
  assert (E2 : forall i j, i < n -> edge (ps_links st') i j <-> edge (ps_links st) i j). { intros i j Hi. unfold edge. rewrite <- (proj1 (LOW i Hi)). reflexivity. }
  assert (E3 : forall i j, n <= i -> edge (ps_links st') i j -> i < j /\ j < length (ps_toks st')). { intros i j Hi Hij. apply E1 in Hij; [|exact Hi]. destruct GB as (_ & GB). specialize (GB i j Hij). rewrite LB. lia. }
  assert (E0 : forall i j, i < n -> ~ edge (ps_links b') i j). { intros i j Hi Hij. unfold edge in Hij. rewrite (EN i Hi) in Hij. destruct Hij. }
  assert (M : mutual (ps_links st')).
  { intros i j. destruct (Nat.lt_ge_cases i n) as [Hi|Hi], (Nat.lt_ge_cases j n) as [Hj|Hj].
    - rewrite <- (proj1 (LOW i Hi)), <- (proj2 (LOW j Hj)). apply (proj1 W).
    - transitivity 0; [|symmetry].
      + apply count_occ_not_In. intros K. rewrite <- (proj1 (LOW i Hi)) in K. destruct W as (_ & W). specialize (W i j K). unfold n in *. lia.
      + apply count_occ_not_In. intros K. rewrite <- (proj2 (H j Hj)) in K. apply (edge_prc _ _ _ (proj1 GB)) in K. exact (E0 i j Hi K).
    - transitivity 0; [|symmetry].
      + apply count_occ_not_In. intros K. destruct (E3 i j Hi K). lia.
      + apply count_occ_not_In. intros K. rewrite <- (proj2 (LOW j Hj)) in K. apply (edge_prc _ _ _ (proj1 W)) in K. destruct W as (_ & W). specialize (W i j K). unfold n in *. lia.
    - rewrite <- (proj1 (H i Hi)), <- (proj2 (H j Hj)). apply (proj1 GB). }
  assert (TS : ps_toks st' = ps_toks st ++ new) by (rewrite <- T; exact TN).
  exists st', v, new. split; [exact ES|]. split; [exact TS|]. split; [exact FT|]. split.
  { split; [exact M|]. intros i j Hij. destruct (Nat.lt_ge_cases i n) as [Hi|Hi]; [|destruct (E3 i j Hi Hij); lia]. apply E2 in Hij; [|exact Hi]. destruct W as (_ & W). specialize (W i j Hij). unfold n in *. lia. }
  split.
  { intros i j. split; [|intros [(Hij & Hi & _)|(Hij & _)]; [apply E2; assumption|exact Hij]]. intros Hij. destruct (Nat.lt_ge_cases i n) as [Hi|Hi]; [left|right].
    - apply E2 in Hij; [|exact Hi]. split; [exact Hij|]. split; [exact Hi|]. destruct W as (_ & W). specialize (W i j Hij). unfold n. lia.
    - destruct (E3 i j Hi Hij). split; [exact Hij|lia]. }
  split. { intros i Hi. destruct (LOW i Hi). auto. }
  split. { intros i. destruct (Nat.lt_ge_cases i n) as [Hi|Hi]; [right; exact Hi|left]. intros K. destruct (E3 i i Hi K). lia. }
  rewrite LB. split; [exact LS|]. split; [exact LE|].
  assert (WK : forall l i, n <= i -> walk (ps_links st') i l <-> walk (ps_links b') i l).
  { induction l as [|j l IHl]; intros i Hi; [reflexivity|]. cbn [walk]. rewrite (E1 i j Hi). split; intros (A & B); (split; [exact A|]); apply (IHl j); try exact B.
    all: apply (E1 i j Hi) in A; destruct (E3 i j Hi A); lia. }
  split.
  - intros w. rewrite <- SP. unfold spells. assert (TX : text_of st' = text_of b') by (unfold text_of; rewrite T; reflexivity). rewrite TX.
    split; intros (i & l & A & B & C & D); exists i, l; (split; [exact A|]); (split; [|auto]); apply WK; try exact B; apply WS in A; unfold n; cbn in A; lia.
  - intros t Ht. rewrite LB in Ht. destruct (FU t Ht) as ((f & l & A & B & C) & (l2 & D & E)). split.
    + exists f, l. split; [exact A|]. split; [|exact C]. apply WK; [apply WS in A; unfold n; cbn in A; lia|exact B].
    + exists l2. split; [|exact E]. apply WK; [lia|exact D].
Qed.

(** ** The text of a token *)
Lemma firstn_In_list {A} (c : A) k l : In c (firstn k l) -> In c l.
Proof. intros H. rewrite <- (firstn_skipn k l). apply in_app_iff. left. exact H. Qed.
Lemma nth_error_Some_lt {A} (l : list A) i x : nth_error l i = Some x -> i < length l.
Proof. intros H. apply nth_error_Some. rewrite H. discriminate. Qed.
Lemma char_at_ok s i : (0 <= i <= Z.of_nat (length s))%Z -> exists c, char_at s i = Ok c.
Proof.
  intros H. unfold char_at. destruct (Z.ltb_spec i 0); [lia|]. destruct (nth_error s (Z.to_nat i)) as [c|] eqn:E; [eauto|]. apply nth_error_None in E. destruct (Nat.eqb_spec (Z.to_nat i) (length s)); [eauto|lia].
Qed.
Lemma substr_ok s i k : (i <= Z.of_nat (length s))%Z -> exists r, substr s i k = Ok r /\ forall c, In c r -> In c s.
Proof.
  intros H. unfold substr. destruct (Z.ltb_spec (Z.of_nat (length s)) i); [lia|]. eexists. split; [reflexivity|]. intros c Hc. assert (K : In c (skipn (Z.to_nat i) s)) by (destruct (k <? 0)%Z; [exact Hc|exact (firstn_In_list _ _ _ Hc)]).
  rewrite <- (firstn_skipn (Z.to_nat i) s). apply in_app_iff. right. exact K.
Qed.
Lemma get_text_total o s : s <> [] -> exists text tk, get_text o (new_token s) = Ok (text, tk) /\ forall c, In c text -> In c s.
Proof.
  intros NE. assert (L : 1 <= length s) by (destruct s; [congruence|cbn; lia]).
  assert (OPT : exists opt start size, (if op_optdel o then
       let* a := char_at s 0 in
       let* b := (if Ascii.eqb a BEGIN_OPTIONAL_MARKER then let* z := char_at s (Z.of_nat (length s) - 1) in Ok (Ascii.eqb z END_OPTIONAL_MARKER) else Ok false) in
       Ok (if b : bool then (true, 1%Z, (Z.of_nat (length s) - 2)%Z) else (false, 0%Z, Z.of_nat (length s)))
     else Ok (false, 0%Z, Z.of_nat (length s))) = Ok (opt, start, size) /\ (0 <= start /\ 0 <= size /\ start + size <= Z.of_nat (length s) /\ 1 <= start + size)%Z).
  { destruct (op_optdel o); [|exists false, 0%Z, (Z.of_nat (length s)); split; [reflexivity|lia]].
    destruct (char_at_ok s 0) as (a & EA); [lia|]. rewrite EA. cbn [rbind]. destruct (Ascii.eqb_spec a BEGIN_OPTIONAL_MARKER) as [->|NA]; cbn [rbind]; [|exists false, 0%Z, (Z.of_nat (length s)); split; [reflexivity|lia]].
    destruct (char_at_ok s (Z.of_nat (length s) - 1)) as (z & EZ); [lia|]. rewrite EZ. cbn [rbind]. destruct (Ascii.eqb_spec z END_OPTIONAL_MARKER) as [->|NZ]; [|exists false, 0%Z, (Z.of_nat (length s)); split; [reflexivity|lia]].
    assert (L2 : length s <> 1). { intros K. rewrite K in EZ. change (Z.of_nat 1 - 1)%Z with 0%Z in EZ. rewrite EA in EZ. discriminate. }
    exists true, 1%Z, (Z.of_nat (length s) - 2)%Z. split; [reflexivity|lia]. }
  destruct OPT as (opt & start & size & EO & S1 & S2 & S3 & S4).
  assert (CL : exists b f st sz, clean o (new_token s) = Ok (b, f, st, sz) /\ (st <= Z.of_nat (length s))%Z).
  { unfold clean, new_token. cbn [tk_src tk_frag]. cbv zeta. rewrite EO. cbn [rbind]. destruct (op_fragok o); [|do 4 eexists; split; [reflexivity|lia]].
    destruct (char_at_ok s start) as (a & EA); [lia|]. rewrite EA. cbn [rbind].
    destruct (Ascii.eqb_spec a FRAGMENT_MARKER) as [->|NA].
    - assert (SL : (start < Z.of_nat (length s))%Z). { unfold char_at in EA. destruct (Z.ltb_spec start 0); [lia|]. destruct (nth_error s (Z.to_nat start)) eqn:EN; [apply nth_error_Some_lt in EN; lia|]. destruct (Nat.eqb _ _); discriminate. }
      destruct (char_at_ok s (start + 1 + (size - 1) - 1)) as (z & EZ); [lia|]. rewrite EZ. cbn [rbind]. destruct (Ascii.eqb z FRAGMENT_MARKER); do 4 eexists; (split; [reflexivity|lia]).
    - destruct (char_at_ok s (start + size - 1)) as (z & EZ); [lia|]. rewrite EZ. cbn [rbind]. destruct (Ascii.eqb z FRAGMENT_MARKER); do 4 eexists; (split; [reflexivity|lia]). }
  destruct CL as (b & f & st & sz & EC & LS). unfold get_text. rewrite EC. cbn [rbind new_token tk_src]. destruct (substr_ok s st sz LS) as (r & ER & HR). rewrite ER. cbn [rbind]. do 2 eexists. split; [reflexivity|exact HR].
Qed.
