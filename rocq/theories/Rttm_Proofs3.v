(** Proofs about the expansion of alternations, continued: tokens, segments and speeches. *)
From Coq Require Import String List NArith ZArith Arith Bool Ascii Lia.
From Verif Require Import Base Store_Model Segm_Model Graph_Model Links_Model Links_Spec Links_Proofs Token_Model Alt_Model Alt_Spec Alt_Proofs Alt_Proofs2 AsTrn_Model AsStm_Model Rttm_Model Rttm_Spec Rttm_Proofs1 Rttm_Proofs2.
Import ListNotations.
Local Open Scope res_scope.
Local Notation length := List.length.

Definition src (st : pstate) (i : nat) : string := string_of_list_ascii (source (nth i (ps_toks st) no_tok)).
Lemma marked_iff s : marked s = true <-> expandable s.
Proof.
  unfold marked, expandable. rewrite andb_true_iff, !existsb_exists. split.
  - intros ((c & IC & HC) & (d & ID & HD)). apply orb_true_iff in HC, HD. split.
    + destruct HC as [HC|HC]; apply Ascii.eqb_eq in HC; subst; auto.
    + destruct HD as [HD|HD]; apply Ascii.eqb_eq in HD; subst; auto.
  - intros (A & B). split; [destruct A as [A|A]|destruct B as [B|B]]; eexists; (split; [eassumption|reflexivity]).
Qed.
Lemma source_opt t : string_of_list_ascii (source t) = in_parens (at_opt t) (at_text t).
Proof. unfold source, in_parens. destruct (at_opt t); [reflexivity|apply string_of_list_ascii_of_string]. Qed.
Lemma Forall2_map_eq {A B} (R : A -> B -> Prop) (f : A -> B) l p : (forall x q, In x l -> (R x q <-> q = f x)) -> (Forall2 R l p <-> p = map f l).
Proof.
  revert p. induction l as [|a l IH]; intros p H; split.
  - intros K. inversion K. reflexivity.
  - intros ->. constructor.
  - intros K. inversion K as [|? q ? ps K1 K2]; subst. cbn [map]. f_equal; [apply H; [left; reflexivity|exact K1]|]. apply IH; [intros; apply H; right; assumption|exact K2].
  - intros ->. cbn [map]. constructor; [apply H; [left|]; reflexivity|]. apply IH; [intros; apply H; right; assumption|reflexivity].
Qed.
Lemma Forall2_same {A B} (R R' : A -> B -> Prop) l p : (forall x q, In x l -> (R x q <-> R' x q)) -> Forall2 R l p <-> Forall2 R' l p.
Proof. intros H. split; intros K; revert H; induction K as [|x q l p K1 K2 IH]; intros H; constructor; try (apply H; [left; reflexivity|exact K1]); apply IH; intros; apply H; right; assumption. Qed.
Lemma walk_below h n : (forall x y, edge h x y -> x < n /\ y < n) -> forall l a, a < n -> walk h a l -> forall x, In x (a :: l) -> x < n.
Proof. intros B. induction l as [|b l IH]; intros a Ha W x [<-|Hx]; [exact Ha|destruct Hx|exact Ha|]. destruct W as (W1 & W). apply (IH b); [apply (B a b W1)|exact W|exact Hx]. Qed.
Lemma walk_high h n : (forall x y, edge h x y -> n <= x -> n <= y) -> forall l a, n <= a -> walk h a l -> forall x, In x (a :: l) -> n <= x.
Proof. intros B. induction l as [|b l IH]; intros a Ha W x [<-|Hx]; [exact Ha|destruct Hx|exact Ha|]. destruct W as (W1 & W). apply (IH b); [apply (B a b W1 Ha)|exact W|exact Hx]. Qed.

Section Expand.
Variables (o : options) (fuel : nat) (st0 : pstate).
Let N0 := length (ps_toks st0).
Let T0 (i : nat) := nth i (ps_toks st0) no_tok.
Definition mk (i : nat) : bool := match get_text o (new_token (source (T0 i))) with Ok (text, _) => marked text | _ => false end.
Definition rd (i : nat) (p : list string) : Prop :=
  exists text tk a x, get_text o (new_token (source (T0 i))) = Ok (text, tk) /\ as_line text = print_alts a /\ ok_line a /\ says_alts a x /\ x <> [] /\ p = map (in_parens (tk_opt tk)) x.
Definition tok_fine (i : nat) : Prop :=
  source (T0 i) <> [] /\ (0 <= at_dur (T0 i))%Z
  /\ forall text tk, get_text o (new_token (source (T0 i))) = Ok (text, tk) -> marked text = true -> exists a, as_line text = print_alts a /\ ok_line a /\ length (print_alts a) < fuel.
Hypotheses (WF0 : wf st0) (SELF0 : forall x, ~ edge (ps_links st0) x x) (FINE : forall i, i < N0 -> tok_fine i).

(** What a token stands for *)
Definition Rd (st : pstate) (i : nat) (p : list string) : Prop :=
  (i < N0 /\ mk i = true /\ rd i p) \/ (~ (i < N0 /\ mk i = true) /\ p = [src st i]).
(** The first tokens now, given those at first *)
Definition cur (D : list nat) (Sf : nat -> list nat) (F : nat -> Prop) (x : nat) : Prop := (F x /\ ~ In x D) \/ exists t, In t D /\ F t /\ In x (Sf t).
Definition old (F : nat -> Prop) : Prop := forall x, F x -> x < N0.

Record inv (st : pstate) (D : list nat) (Sf Ef : nat -> list nat) : Prop := {
  i_toks : exists new, ps_toks st = ps_toks st0 ++ new;
  i_wf : wf st;
  i_self : forall x, ~ edge (ps_links st) x x;
  i_D : forall t, In t D -> t < N0 /\ mk t = true;
  i_off : forall x y, edge (ps_links st) x y -> ~ In x D /\ ~ In y D;
  i_old : forall x y, x < N0 -> y < N0 -> edge (ps_links st) x y <-> edge (ps_links st0) x y /\ ~ In x D /\ ~ In y D;
  i_new : forall x y, x < N0 -> N0 <= y -> edge (ps_links st) x y -> exists t, In t D /\ edge (ps_links st0) x t;
  i_SE : forall t x, In t D -> In x (Sf t) \/ In x (Ef t) -> N0 <= x < length (ps_toks st);
  i_says : forall F L w, old F -> old L -> says_via (Rd st0) (ps_links st0) F L w <-> says_via (Rd st) (ps_links st) (cur D Sf F) (cur D Ef L) w }.
Lemma inv_first : inv st0 [] (fun _ => []) (fun _ => []).
Proof.
  constructor.
  - exists []. rewrite app_nil_r. reflexivity.
  - exact WF0.
  - exact SELF0.
  - intros t [].
  - intros x y _. split; intros [].
  - intros x y _ _. cbn. tauto.
  - intros x y _ Hy E. destruct WF0 as (_ & W). specialize (W x y E). fold N0 in W. lia.
  - intros t x [].
  - intros F L w _ _. unfold says_via, cur. split; intros (a & l & ps & FA & W & LA & R); exists a, l, ps.
    + split; [left; split; [exact FA|intros []]|]. split; [exact W|]. split; [left; split; [exact LA|intros []]|exact R].
    + destruct FA as [(FA & _)|(t & [] & _)]. destruct LA as [(LA & _)|(t & [] & _)]. auto.
Qed.

Lemma inv_len st D Sf Ef : inv st D Sf Ef -> N0 <= length (ps_toks st).
Proof. intros H. destruct (i_toks _ _ _ _ H) as (new & ->). rewrite app_length. fold N0. lia. Qed.
Lemma inv_tok st D Sf Ef i : inv st D Sf Ef -> i < N0 -> nth i (ps_toks st) no_tok = T0 i.
Proof. intros H L. destruct (i_toks _ _ _ _ H) as (new & ->). apply app_nth1. exact L. Qed.
Lemma cur_step D Sf S t F : old F -> t < N0 -> ~ In t D -> (forall u x, In u D -> In x (Sf u) -> N0 <= x) -> (forall x, In x S -> N0 <= x) ->
  forall x, cur (t :: D) (upd Sf t S) F x <-> swap t (cur D Sf F) S x.
Proof.
  intros O LT ND HS HN x. unfold cur, swap. split.
  - intros [(FX & NI)|(u & IU & FU & IX)].
    + split; [intros ->; apply NI; left; reflexivity|]. left. left. split; [exact FX|]. intros K. apply NI. right. exact K.
    + destruct (Nat.eq_dec u t) as [->|NE].
      * rewrite upd_same in IX. split; [specialize (HN x IX); lia|]. right. split; [left; auto|exact IX].
      * rewrite upd_other in IX by exact NE. destruct IU as [IU|IU]; [congruence|]. split; [specialize (HS u x IU IX); lia|]. left. right. exists u. auto.
  - intros (NX & [[(FX & NI)|(u & IU & FU & IX)]|([(FT & _)|(u & IU & FU & IX)] & IS)]).
    + left. split; [exact FX|]. intros [K|K]; [congruence|exact (NI K)].
    + right. exists u. split; [right; exact IU|]. split; [exact FU|]. rewrite upd_other; [exact IX|]. intros ->. exact (ND IU).
    + right. exists t. split; [left; reflexivity|]. split; [exact FT|]. rewrite upd_same. exact IS.
    + specialize (HS u t IU IX). lia.
Qed.
Lemma says_via_same R R' h F F' L L' w : (forall x p, R x p <-> R' x p) -> (forall x, F x <-> F' x) -> (forall x, L x <-> L' x) -> says_via R h F L w <-> says_via R' h F' L' w.
Proof.
  intros HR HF HL. unfold says_via. split; intros (a & l & ps & A & B & C & D & E); exists a, l, ps; (split; [apply HF, A|]); (split; [exact B|]); (split; [apply HL, C|]); (split; [|exact E]); (eapply Forall2_same; [|exact D]); intros; [symmetry|]; apply HR.
Qed.

(** A segment now, given its tokens at first *)
Definition seg_now (D : list nat) (Sf Ef : nat -> list nat) (s0 s : segment) : Prop :=
  (forall x, In x (sg_first s) <-> cur D Sf (fun y => In y (sg_first s0)) x) /\ (forall x, In x (sg_last s) <-> cur D Ef (fun y => In y (sg_last s0)) x)
  /\ NoDup (sg_first s) /\ NoDup (sg_last s) /\ sg_begin s = sg_begin s0 /\ sg_end s = sg_end s0.
Definition seg_fine (s0 : segment) : Prop :=
  (forall x, In x (sg_first s0) -> x < N0 /\ (sg_begin s0 <= at_start (T0 x))%Z) /\ (forall x, In x (sg_last s0) -> x < N0 /\ (at_start (T0 x) + at_dur (T0 x) <= sg_end s0)%Z).

Lemma expand_marked st D Sf Ef s0 s t : inv st D Sf Ef -> seg_now D Sf Ef s0 s -> seg_fine s0 -> t < N0 -> ~ In t D -> mk t = true ->
  exists st' s' S E, expand_token o fuel st s t = Ok (st', s') /\ inv st' (t :: D) (upd Sf t S) (upd Ef t E) /\ seg_now (t :: D) (upd Sf t S) (upd Ef t E) s0 s'
    /\ (forall x, In x S \/ In x E -> N0 <= x).
Proof.
  intros IV (SF & SL & ND1 & ND2 & SB & SE) (FF & FL) LT ND MK. pose proof (inv_len _ _ _ _ IV) as LN. set (n := length (ps_toks st)) in *.
  destruct (FINE t LT) as (NE & DUR & ALT). unfold expand_token. rewrite (inv_tok _ _ _ _ t IV LT).
  unfold mk in MK. destruct (get_text o (new_token (source (T0 t)))) as [(text, tk)| | |] eqn:GT; try discriminate. cbn [rbind]. rewrite MK.
  destruct (ALT text tk eq_refl MK) as (a & EA & OKA & LF).
  destruct (parse_beside (Some (at_start (T0 t), (at_start (T0 t) + at_dur (T0 t))%Z)) (tk_opt tk) fuel a st OKA LF (i_wf _ _ _ _ IV)) as (st1 & v & new & EP & TS & TOK & W1 & EE & LOW & SE1 & LS & LE & SP & FU).
  fold n in EE, LOW, SE1, LS, LE, FU. assert (L1 : length (ps_toks st1) = n + length new) by (rewrite TS, app_length; reflexivity).
  unfold parse_line_ex. rewrite filter_space_lex_ex. change (lex (replace_char "#" " " (replace_char "_" " " text))) with (as_line text). rewrite EA, EP. cbn [rbind].
  assert (TOKN : forall x, n <= x < n + length new -> tok_ok (Some (at_start (T0 t), (at_start (T0 t) + at_dur (T0 t))%Z)) (tk_opt tk) (nth x (ps_toks st1) no_tok)).
  { intros x Hx. rewrite TS, app_nth2 by (fold n; lia). fold n. apply (proj1 (Forall_forall _ _) TOK). apply nth_In. lia. }
  assert (CB : forall F Sf', old F -> (forall u x, In u D -> In x (Sf' u) -> N0 <= x < n) -> forall x, cur D Sf' F x -> x < n).
  { intros F Sf' O HS x [(FX & _)|(u & IU & _ & IX)]; [specialize (O x FX); lia|specialize (HS u x IU IX); lia]. }
  assert (HS : forall u x, In u D -> In x (Sf u) -> N0 <= x < n) by (intros u x IU IX; apply (i_SE _ _ _ _ IV u x IU); left; exact IX).
  assert (HEf : forall u x, In u D -> In x (Ef u) -> N0 <= x < n) by (intros u x IU IX; apply (i_SE _ _ _ _ IV u x IU); right; exact IX).
  assert (OF : old (fun y => In y (sg_first s0))) by (intros x Hx; apply (FF x Hx)). assert (OL : old (fun y => In y (sg_last s0))) by (intros x Hx; apply (FL x Hx)).
  destruct (replace_fits (times_of (ps_toks st1)) (ps_links st1) s t (vs_start v) (vs_end v)) as (h' & s' & ER & M' & HX & F' & L' & NF' & NL' & B' & E').
  { apply W1. }
  { intros IT x Hx. right. cbn [times_of tk_begin]. rewrite SB. apply SF in IT. destruct LS as (_ & LS). specialize (LS x Hx). rewrite L1 in LS. destruct (TOKN x LS) as (_ & TB).
    assert (IT0 : In t (sg_first s0)). { destruct IT as [(IT & _)|(u & IU & _ & IX)]; [exact IT|]. specialize (HS u t IU IX). lia. } specialize (FF t IT0). lia. }
  { intros IT x Hx. right. cbn [times_of tk_end]. rewrite SE. apply SL in IT. destruct LE as (_ & LE). specialize (LE x Hx). rewrite L1 in LE. destruct (TOKN x LE) as (_ & TB).
    assert (IT0 : In t (sg_last s0)). { destruct IT as [(IT & _)|(u & IU & _ & IX)]; [exact IT|]. specialize (HEf u t IU IX). lia. } specialize (FL t IT0). lia. }
  { intros K. apply LS in K. lia. }
  { intros K. apply LE in K. lia. }
  { intros K. apply EE in K. destruct K as [(K & _)|(_ & K & _)]; [exact (i_self _ _ _ _ IV t K)|lia]. }
  { exact ND1. }
  { exact ND2. }
  { intros x Hx K. apply LS in Hx. apply SF in K. specialize (CB _ Sf OF HS x K). lia. }
  { intros x Hx K. apply LE in Hx. apply SL in K. specialize (CB _ Ef OL HEf x K). lia. }
  { apply LS. }
  { apply LE. }
  rewrite ER. cbn [rbind]. eexists {| ps_toks := ps_toks st1; ps_links := h' |}, s', (vs_start v), (vs_end v). split; [reflexivity|].
  assert (NS : forall x, In x (vs_start v) -> n <= x < n + length new) by (intros x Hx; rewrite <- L1; apply LS, Hx).
  assert (NEn : forall x, In x (vs_end v) -> n <= x < n + length new) by (intros x Hx; rewrite <- L1; apply LE, Hx).
  assert (CS : forall F, old F -> forall x, cur (t :: D) (upd Sf t (vs_start v)) F x <-> swap t (cur D Sf F) (vs_start v) x).
  { intros F O. apply cur_step; [exact O|exact LT|exact ND|intros u x IU IX; apply (HS u x IU IX)|intros x Hx; specialize (NS x Hx); lia]. }
  assert (CE : forall F, old F -> forall x, cur (t :: D) (upd Ef t (vs_end v)) F x <-> swap t (cur D Ef F) (vs_end v) x).
  { intros F O. apply cur_step; [exact O|exact LT|exact ND|intros u x IU IX; apply (HEf u x IU IX)|intros x Hx; specialize (NEn x Hx); lia]. }
  split; [|split; [|intros x [Hx|Hx]; [specialize (NS x Hx)|specialize (NEn x Hx)]; lia]].
  2:{ split; [|split; [|split; [exact NF'|split; [exact NL'|split; [rewrite B'; exact SB|rewrite E'; exact SE]]]]].
      - intros x. rewrite F', (CS _ OF). unfold swap. rewrite !SF. tauto.
      - intros x. rewrite L', (CE _ OL). unfold swap. rewrite !SL. tauto. }
  assert (BND : forall x y, edge h' x y -> x < n + length new /\ y < n + length new).
  { intros x y K. apply HX in K. destruct K as (_ & _ & [K|[(K & IX)|(IX & K)]]); apply (proj2 W1) in K; rewrite L1 in K; [exact K|split; [lia|apply NS in IX; lia]|split; [apply NEn in IX; lia|lia]]. }
  assert (E1 : forall x y, x < n -> edge (ps_links st1) x y <-> edge (ps_links st) x y) by (intros x y Hx; unfold edge; rewrite (proj1 (LOW x Hx)); reflexivity).
  constructor; cbn [ps_toks ps_links].
  - destruct (i_toks _ _ _ _ IV) as (new0 & E0). exists (new0 ++ new). rewrite TS, E0, app_assoc. reflexivity.
  - split; [exact M'|]. cbn [ps_toks ps_links]. rewrite L1. exact BND.
  - intros x K. apply HX in K. destruct K as (NX & _ & [K|[(K & IX)|(IX & K)]]).
    + destruct (SE1 x) as [K'|K']; [exact (K' K)|]. apply E1 in K; [|exact K']. exact (i_self _ _ _ _ IV x K).
    + apply NS in IX. apply EE in K. lia.
    + apply NEn in IX. apply EE in K. lia.
  - intros u [<-|IU]; [split; [exact LT|unfold mk; rewrite GT; exact MK]|apply (i_D _ _ _ _ IV u IU)].
  - assert (OFF : forall x y, edge (ps_links st1) x y -> ~ In x D /\ ~ In y D).
    { intros x y K. apply EE in K. destruct K as [(K & _)|(_ & K1 & K2)]; [exact (i_off _ _ _ _ IV x y K)|]. split; intros I; apply (i_D _ _ _ _ IV) in I; lia. }
    intros x y K. apply HX in K. destruct K as (NX & NY & K).
    assert (IN : forall z, ~ In z D -> z <> t -> ~ In z (t :: D)) by (intros z A B [C|C]; [congruence|exact (A C)]).
    assert (NW : forall z, In z (vs_start v) \/ In z (vs_end v) -> ~ In z D) by (intros z [A|A] I; [apply NS in A|apply NEn in A]; apply (i_D _ _ _ _ IV) in I; lia).
    destruct K as [K|[(K & IX)|(IX & K)]]; apply OFF in K; split; apply IN; try assumption; try apply K; apply NW; auto.
  - intros x y Hx Hy. rewrite HX. rewrite (E1 x y) by lia. rewrite (i_old _ _ _ _ IV x y Hx Hy). cbn [In]. split.
    + intros (NX & NY & [K|[(_ & IX)|(IX & _)]]); [intuition congruence|apply NS in IX; lia|apply NEn in IX; lia].
    + intros (K & A & B). split; [intros ->; apply A; left; reflexivity|]. split; [intros ->; apply B; left; reflexivity|]. left. tauto.
  - intros x y Hx Hy K. apply HX in K. destruct K as (NX & NY & [K|[(K & IX)|(IX & K)]]).
    + apply E1 in K; [|lia]. destruct (i_new _ _ _ _ IV x y Hx Hy K) as (u & IU & KU). exists u. split; [right; exact IU|exact KU].
    + apply E1 in K; [|lia]. apply (i_old _ _ _ _ IV x t Hx LT) in K. exists t. split; [left; reflexivity|apply K].
    + apply NEn in IX. lia.
  - intros u x [<-|IU]; [rewrite !upd_same; intros [K|K]; [apply NS in K|apply NEn in K]; lia|].
    destruct (Nat.eq_dec u t) as [->|NU]; [destruct (ND IU)|]. rewrite !upd_other by exact NU. intros K. specialize (i_SE _ _ _ _ IV u x IU K). fold n. lia.
  - intros F L w OF' OL'. rewrite (i_says _ _ _ _ IV F L w OF' OL').
    set (st' := {| ps_toks := ps_toks st1; ps_links := h' |}).
    assert (R1 : forall x p, x < n -> Rd st x p <-> Rd st' x p).
    { intros x p Hx. unfold Rd, src. cbn [st' ps_toks]. rewrite TS, app_nth1 by exact Hx. reflexivity. }
    assert (STEP1 : says_via (Rd st) (ps_links st) (cur D Sf F) (cur D Ef L) w <-> says_via (Rd st') (ps_links st1) (cur D Sf F) (cur D Ef L) w).
    { assert (WK : forall l a, a < n -> walk (ps_links st1) a l <-> walk (ps_links st) a l).
      { induction l as [|b l IH]; intros a' Ha; [reflexivity|]. cbn [walk]. rewrite (E1 a' b Ha). split; intros (A & B); (split; [exact A|]); apply (IH b); try exact B; apply (proj2 (i_wf _ _ _ _ IV)) in A; apply A. }
      unfold says_via. split; intros (a' & l & ps & FA & W & LA & FR & EQ); exists a', l, ps; (split; [exact FA|]); pose proof (CB F Sf OF' HS a' FA) as Ha.
      - assert (W' := W). apply (WK l a' Ha) in W'. split; [exact W'|]. split; [exact LA|]. split; [|exact EQ]. eapply Forall2_same; [|exact FR]. intros x q Hx. symmetry. apply R1. exact (walk_below _ n (proj2 (i_wf _ _ _ _ IV)) l a' Ha W x Hx).
      - assert (W' := W). apply (WK l a' Ha) in W'. split; [exact W'|]. split; [exact LA|]. split; [|exact EQ]. eapply Forall2_same; [|exact FR]. intros x q Hx. apply R1. exact (walk_below _ n (proj2 (i_wf _ _ _ _ IV)) l a' Ha W' x Hx). }
    rewrite STEP1. rewrite (replaced (ps_links st1) h' n t (vs_start v) (vs_end v) (Rd st') (cur D Sf F) (cur D Ef L)).
    + apply says_via_same; [reflexivity|intros x; symmetry; apply CS, OF'|intros x; symmetry; apply CE, OL'].
    + lia.
    + intros x Hx. apply NS in Hx. lia.
    + intros x Hx. apply NEn in Hx. lia.
    + intros x y K. apply EE in K. destruct K as [(_ & K)|(_ & K)]; [left|right]; lia.
    + intros K. apply EE in K. destruct K as [(K & _)|(_ & K & _)]; [exact (i_self _ _ _ _ IV t K)|lia].
    + exact HX.
    + exact (CB F Sf OF' HS).
    + exact (CB L Ef OL' HEf).
    + intros u. assert (RN : forall x p, n <= x < n + length new -> Rd st' x p <-> p = [in_parens (tk_opt tk) (text_of st1 x)]).
      { intros x p Hx. unfold Rd, src. cbn [st' ps_toks]. rewrite source_opt. destruct (TOKN x Hx) as (-> & _). split; [intros [(K & _)|(_ & K)]; [lia|exact K]|intros ->; right; split; [lia|reflexivity]]. }
      assert (WN : forall l x, n <= x < n + length new -> walk (ps_links st1) x l -> forall y, In y (x :: l) -> n <= y < n + length new).
      { intros l x Hx W y Hy. split.
        - apply (walk_high (ps_links st1) n) with (l := l) (a := x); [|lia|exact W|exact Hy]. intros i j K Hi. apply EE in K. lia.
        - apply (walk_below (ps_links st1) (n + length new)) with (l := l) (a := x); [|lia|exact W|exact Hy]. intros i j K. apply (proj2 W1) in K. rewrite L1 in K. exact K. }
      assert (CM : forall l, concat (map (fun x => [in_parens (tk_opt tk) (text_of st1 x)]) l) = map (in_parens (tk_opt tk)) (map (text_of st1) l)).
      { induction l as [|z l IH]; [reflexivity|]. cbn [map concat app]. f_equal. exact IH. }
      split.
      * intros [(_ & _ & text' & tk' & a' & x & GT' & EA' & OK' & SA & NX & ->)|(K & _)]; [|destruct K; split; [exact LT|unfold mk; rewrite GT; exact MK]].
        rewrite GT in GT'. injection GT' as <- <-.
        assert (SA' : says_alts a x).
        { assert (LF' : length (print_alts a') < fuel) by (rewrite <- EA', EA; exact LF).
          destruct (parse_beside (Some (at_start (T0 t), (at_start (T0 t) + at_dur (T0 t))%Z)) (tk_opt tk) fuel a' st OK' LF' (i_wf _ _ _ _ IV)) as (st2 & v2 & new2 & EP2 & _ & _ & _ & _ & _ & _ & _ & _ & SP2 & _).
          rewrite <- EA', EA, EP in EP2. injection EP2 as <- <-. apply SP. apply SP2. auto. }
        destruct (proj2 (SP x) (conj NX SA')) as (b & l & IB & W & LB & TX). exists b, l, (map (fun x => [in_parens (tk_opt tk) (text_of st1 x)]) (b :: l)). split; [exact IB|]. split; [exact W|]. split; [exact LB|]. split.
        { refine (proj2 (Forall2_map_eq (Rd st') (fun x => [in_parens (tk_opt tk) (text_of st1 x)]) _ _ _) eq_refl). intros y q Hy. apply RN. exact (WN l b (NS b IB) W y Hy). }
        rewrite CM, TX. reflexivity.
      * intros (b & l & ps & IB & W & LB & FR & ->). left. split; [exact LT|]. split; [unfold mk; rewrite GT; exact MK|].
        apply (Forall2_map_eq _ (fun x => [in_parens (tk_opt tk) (text_of st1 x)])) in FR; [|intros y q Hy; apply RN; exact (WN l b (NS b IB) W y Hy)]. subst ps. rewrite CM.
        assert (SPL : spells st1 (vs_start v) (vs_end v) (map (text_of st1) (b :: l))) by (exists b, l; auto). apply SP in SPL. destruct SPL as (NX & SA).
        exists text, tk, a, (map (text_of st1) (b :: l)). auto 10.
Qed.

(** First and last tokens that are not among [ts] stay. *)
Definition keeps (D : list nat) (Sf : nat -> list nat) (D' : list nat) (Sf' : nat -> list nat) (ts : list nat) : Prop :=
  forall F : nat -> Prop, (forall x, F x -> ~ In x ts) -> forall x, cur D Sf F x <-> cur D' Sf' F x.
Lemma keeps_refl D Sf ts : keeps D Sf D Sf ts.
Proof. intros F _ x. reflexivity. Qed.
Lemma keeps_trans D Sf D1 Sf1 D2 Sf2 a b : keeps D Sf D1 Sf1 a -> keeps D1 Sf1 D2 Sf2 b -> keeps D Sf D2 Sf2 (a ++ b).
Proof. intros A B F H x. rewrite (A F), (B F); [reflexivity| |]; intros y Hy K; apply (H y Hy), in_app_iff; auto. Qed.
Lemma keeps_step D Sf t S : ~ In t D -> keeps D Sf (t :: D) (upd Sf t S) [t].
Proof.
  intros ND F H x. unfold cur. split.
  - intros [(FX & NI)|(u & IU & FU & IX)].
    + left. split; [exact FX|]. intros [K|K]; [|exact (NI K)]. subst x. apply (H t FX). left. reflexivity.
    + right. exists u. split; [right; exact IU|]. split; [exact FU|]. rewrite upd_other; [exact IX|]. intros ->. exact (ND IU).
  - intros [(FX & NI)|(u & IU & FU & IX)].
    + left. split; [exact FX|]. intros K. apply NI. right. exact K.
    + assert (NU : u <> t) by (intros ->; apply (H t FU); left; reflexivity). rewrite upd_other in IX by exact NU. right. exists u. destruct IU as [K|IU]; [congruence|]. auto.
Qed.
Lemma expand_tokens_ok s0 : seg_fine s0 -> forall ts st D Sf Ef s, inv st D Sf Ef -> seg_now D Sf Ef s0 s -> NoDup ts -> (forall t, In t ts -> t < N0 /\ ~ In t D) ->
  exists st' s' D' Sf' Ef', expand_tokens o fuel ts st s = Ok (st', s') /\ inv st' D' Sf' Ef' /\ seg_now D' Sf' Ef' s0 s'
    /\ (forall x, In x D' <-> In x D \/ (In x ts /\ mk x = true)) /\ keeps D Sf D' Sf' ts /\ keeps D Ef D' Ef' ts.
Proof.
  intros SF. induction ts as [|t ts IH]; intros st D Sf Ef s IV SN ND HT.
  - exists st, s, D, Sf, Ef. split; [reflexivity|]. split; [exact IV|]. split; [exact SN|]. split; [cbn; tauto|]. split; apply keeps_refl.
  - inversion ND as [|? ? NI ND']; subst. destruct (HT t (or_introl eq_refl)) as (LT & NT). cbn [expand_tokens]. destruct (mk t) eqn:MK.
    + destruct (expand_marked st D Sf Ef s0 s t IV SN SF LT NT MK) as (st1 & s1 & S & E & -> & IV1 & SN1 & _). cbn [rbind].
      destruct (IH st1 (t :: D) (upd Sf t S) (upd Ef t E) s1 IV1 SN1 ND') as (st' & s' & D' & Sf' & Ef' & EX & IV' & SN' & DD & K1 & K2).
      { intros u Hu. split; [apply HT; right; exact Hu|]. intros [K|K]; [congruence|]. destruct (HT u (or_intror Hu)) as (_ & B). exact (B K). }
      exists st', s', D', Sf', Ef'. split; [exact EX|]. split; [exact IV'|]. split; [exact SN'|]. split.
      { intros x. rewrite DD. cbn [In]. split; [intros [[<-|K]|(K & M)]; auto|intros [K|([<-|K] & M)]; auto]. }
      split; [exact (keeps_trans _ _ _ _ _ _ [t] ts (keeps_step D Sf t S NT) K1)|exact (keeps_trans _ _ _ _ _ _ [t] ts (keeps_step D Ef t E NT) K2)].
    + assert (EX : expand_token o fuel st s t = Ok (st, s)).
      { unfold expand_token. rewrite (inv_tok _ _ _ _ t IV LT). destruct (FINE t LT) as (NE & _). destruct (get_text_total o _ NE) as (text & tk & GT & _). unfold mk in MK. rewrite GT in MK |- *. cbn [rbind]. rewrite MK. reflexivity. }
      rewrite EX. cbn [rbind]. destruct (IH st D Sf Ef s IV SN ND') as (st' & s' & D' & Sf' & Ef' & EX' & IV' & SN' & DD & K1 & K2); [intros u Hu; apply HT; right; exact Hu|].
      exists st', s', D', Sf', Ef'. split; [exact EX'|]. split; [exact IV'|]. split; [exact SN'|]. split.
      { intros x. rewrite DD. cbn [In]. split; [intros [K|(K & M)]; auto|intros [K|([<-|K] & M)]; [auto|congruence|auto]]. }
      split; [intros F H; apply K1; intros x Hx K; apply (H x Hx); right; exact K|intros F H; apply K2; intros x Hx K; apply (H x Hx); right; exact K].
Qed.

(** A segment whose tokens are [c], one after the other *)
Definition seg_is (s : segment) (c : list nat) : Prop :=
  match c with [] => sg_first s = [] /\ sg_last s = [] | a :: l => sg_first s = [a] /\ sg_last s = [last l a] end.
Definition exact_chain (c : list nat) : Prop := forall c1 x y c2, c = c1 ++ x :: y :: c2 -> forall z, edge (ps_links st0) x z <-> z = y.
Lemma seg_is_now s c D Sf Ef : seg_is s c -> (forall x, In x c -> ~ In x D) -> (forall t x, In t D -> In x (sg_first s) \/ In x (sg_last s) -> x <> t) -> seg_now D Sf Ef s s.
Proof.
  intros SI HD _. assert (IC : forall x, In x (sg_first s) \/ In x (sg_last s) -> In x c).
  { intros x Hx. destruct c as [|a l]; destruct SI as (E1 & E2); rewrite E1, E2 in Hx; [destruct Hx as [[]|[]]|]. destruct Hx as [[<-|[]]|[<-|[]]]; [left; reflexivity|].
    clear. revert a. induction l as [|b l IH]; intros a; [left; reflexivity|]. rewrite last_cons. right. apply IH. }
  assert (C : forall l Sf, (forall x, In x l -> In x c) -> forall x, In x l <-> cur D Sf (fun y => In y l) x).
  { intros l Sf0 H x. unfold cur. split; [intros K; left; split; [exact K|exact (HD x (H x K))]|intros [(K & _)|(t & IT & K & _)]; [exact K|destruct (HD t (H t K) IT)]]. }
  split; [apply C; intros; apply IC; auto|]. split; [apply C; intros; apply IC; auto|].
  assert (N1 : NoDup (sg_first s) /\ NoDup (sg_last s)). { destruct c as [|a l]; destruct SI as (-> & ->); split; repeat constructor; intros []. }
  split; [apply N1|]. split; [apply N1|auto].
Qed.
Lemma seg_in s c x : seg_is s c -> In x (sg_first s) \/ In x (sg_last s) -> In x c.
Proof.
  intros SI Hx. destruct c as [|a l]; destruct SI as (E1 & E2); rewrite E1, E2 in Hx; [destruct Hx as [[]|[]]|]. destruct Hx as [[<-|[]]|[<-|[]]]; [left; reflexivity|].
  clear. revert a. induction l as [|b l IH]; intros a; [left; reflexivity|]. rewrite last_cons. right. apply IH.
Qed.
Lemma in_last {A} (l : list A) a : In (last l a) (a :: l).
Proof. revert a. induction l as [|b l IH]; intros a; [left; reflexivity|]. rewrite last_cons. right. apply IH. Qed.
Lemma flatten_chain_now st D Sf Ef s c : inv st D Sf Ef -> seg_is s c -> NoDup c -> exact_chain c -> (forall x, In x c -> x < N0 /\ ~ In x D) ->
  exists ts, flatten (nxt (ps_links st)) (S (length (ps_toks st))) s = Ok ts /\ NoDup ts /\ forall x, In x ts <-> In x c.
Proof.
  intros IV SI ND EC HC. pose proof (inv_len _ _ _ _ IV) as LN.
  destruct (flatten_spec (nxt (ps_links st)) s (seq 0 (length (ps_toks st))) (S (length (ps_toks st)))) as (ts & EF & HI & _ & HN).
  { intros a _ b Hb. apply in_seq. destruct (proj2 (i_wf _ _ _ _ IV) a b Hb). lia. }
  { intros x Hx. apply in_seq. destruct (HC x (seg_in s c x SI (or_introl Hx))). lia. }
  { rewrite seq_length. lia. }
  exists ts. split; [exact EF|].
  assert (NEXT : forall c1 x y c2, c = c1 ++ x :: y :: c2 -> forall z, edge (ps_links st) x z <-> z = y).
  { intros c1 x y c2 E z. assert (IX : In x c) by (rewrite E; apply in_app_iff; right; left; reflexivity). assert (IY : In y c) by (rewrite E; apply in_app_iff; right; right; left; reflexivity).
    destruct (HC x IX) as (LX & DX). destruct (HC y IY) as (LY & DY). split.
    - intros K. destruct (Nat.lt_ge_cases z N0) as [LZ|GZ].
      + apply (i_old _ _ _ _ IV x z LX LZ) in K. apply (EC _ _ _ _ E z). apply K.
      + destruct (i_new _ _ _ _ IV x z LX GZ K) as (t & IT & KT). apply (EC _ _ _ _ E t) in KT. subst t. destruct (DY IT).
    - intros ->. apply (i_old _ _ _ _ IV x y LX LY). split; [apply (EC _ _ _ _ E); reflexivity|auto]. }
  assert (RE : forall x, seg_token (nxt (ps_links st)) s x <-> In x c).
  { destruct c as [|a l]; [destruct SI as (E1 & E2); intros x; unfold seg_token; rewrite E1; split; [intros (f & [] & _)|intros []]|]. destruct SI as (E1 & E2). intros x. unfold seg_token. rewrite E1, E2. split.
    - intros (f & [<-|[]] & RX). induction RX as [|b z RX IH NL KZ]; [left; reflexivity|]. apply in_split in IH. destruct IH as (c1 & c2 & EC2). destruct c2 as [|y c2].
      + destruct NL. left. replace (last l a) with (last (a :: l) a) by apply last_cons. rewrite EC2. rewrite last_app_cons. reflexivity.
      + apply (NEXT c1 b y c2 EC2) in KZ. subst z. rewrite EC2. apply in_app_iff. right. right. left. reflexivity.
    - intros IX. exists a. split; [left; reflexivity|]. apply in_split in IX. destruct IX as (c1 & c2 & EC2). revert x c2 EC2. induction c1 as [|y c1 IH] using rev_ind; intros x c2 EC2.
      + cbn [app] in EC2. injection EC2 as <- _. apply reach_refl.
      + rewrite <- app_assoc in EC2. cbn [app] in EC2. apply reach_step with (b := y); [apply (IH y (x :: c2) EC2)| |apply (NEXT c1 y x c2 EC2); reflexivity].
        intros [K|[]]. replace (last l a) with (last (a :: l) a) in K by apply last_cons. rewrite EC2 in K, ND. rewrite last_app_cons in K. apply NoDup_remove_2 in ND. apply ND. apply in_app_iff. right. rewrite <- K. rewrite last_cons. apply (in_last c2 x). }
  split.
  - apply HN; [destruct c as [|a l]; destruct SI as (-> & _); repeat constructor; intros []|]. destruct c as [|a l]; destruct SI as (-> & _); [intros f f' []|]. intros f f' [<-|[]] [<-|[]] _. reflexivity.
  - intros x. rewrite HI. apply RE.
Qed.
Definition item_ok (x : rseg) (c : list nat) : Prop := seg_is (r_seg x) c /\ seg_fine (r_seg x) /\ exact_chain c.
Definition item_now (D : list nat) (Sf Ef : nat -> list nat) (x y : rseg) : Prop := y = with_seg x (r_seg y) /\ seg_now D Sf Ef (r_seg x) (r_seg y).
Lemma NoDup_app_disjoint {A} (l r : list A) : NoDup (l ++ r) -> NoDup l /\ NoDup r /\ forall x, In x l -> ~ In x r.
Proof.
  induction l as [|a l IH]; intros H; [split; [constructor|split; [exact H|intros x []]]|]. cbn [app] in H. inversion H as [|? ? NI H']; subst. destruct (IH H') as (A1 & A2 & A3). split; [constructor; [intros K; apply NI, in_app_iff; auto|exact A1]|]. split; [exact A2|].
  intros x [<-|Hx]; [intros K; apply NI, in_app_iff; auto|exact (A3 x Hx)].
Qed.
Lemma now_keeps D Sf Ef D' Sf' Ef' ts x y c : item_ok x c -> item_now D Sf Ef x y -> keeps D Sf D' Sf' ts -> keeps D Ef D' Ef' ts -> (forall z, In z c -> ~ In z ts) -> item_now D' Sf' Ef' x y.
Proof.
  intros (SI & _) (EY & A & B & R) K1 K2 DJ. split; [exact EY|]. split; [|split; [|exact R]].
  - intros z. rewrite A. apply K1. intros u Hu. apply DJ. apply (seg_in _ _ _ SI). auto.
  - intros z. rewrite B. apply K2. intros u Hu. apply DJ. apply (seg_in _ _ _ SI). auto.
Qed.
Lemma expand_speech_ok : forall xs cs, Forall2 item_ok xs cs -> NoDup (concat cs) -> forall st D Sf Ef, inv st D Sf Ef -> (forall x, In x (concat cs) -> x < N0 /\ ~ In x D) ->
  exists st' ys D' Sf' Ef', expand_speech o fuel st xs = Ok (st', ys) /\ inv st' D' Sf' Ef' /\ Forall2 (item_now D' Sf' Ef') xs ys
    /\ (forall x, In x D' <-> In x D \/ (In x (concat cs) /\ mk x = true)) /\ keeps D Sf D' Sf' (concat cs) /\ keeps D Ef D' Ef' (concat cs).
Proof.
  induction 1 as [|x c xs cs IO IOS IH]; intros ND st D Sf Ef IV HC.
  - exists st, [], D, Sf, Ef. split; [reflexivity|]. split; [exact IV|]. split; [constructor|]. split; [cbn; tauto|]. split; apply keeps_refl.
  - cbn [concat] in *. destruct (NoDup_app_disjoint _ _ ND) as (N1 & N2 & DJ). destruct IO as (SI & SF & EC).
    assert (HC1 : forall z, In z c -> z < N0 /\ ~ In z D) by (intros z Hz; apply HC, in_app_iff; auto).
    destruct (flatten_chain_now st D Sf Ef (r_seg x) c IV SI N1 EC HC1) as (ts & EF & NTS & ITS). cbn [expand_speech]. unfold expand_segment. rewrite EF. cbn [rbind].
    destruct (expand_tokens_ok (r_seg x) SF ts st D Sf Ef (r_seg x) IV) as (st1 & s1 & D1 & Sf1 & Ef1 & E1 & IV1 & SN1 & DD1 & K1 & K2).
    { apply (seg_is_now _ c); [exact SI|intros z Hz; apply HC1, Hz|]. intros t z IT Hz ->. apply (seg_in _ _ _ SI) in Hz. destruct (HC1 t Hz) as (_ & B). exact (B IT). }
    { exact NTS. }
    { intros t Ht. apply HC1, ITS, Ht. }
    rewrite E1. cbn [rbind].
    assert (K1' : keeps D Sf D1 Sf1 c) by (intros F H; apply K1; intros z Hz Q; apply (H z Hz), ITS, Q). assert (K2' : keeps D Ef D1 Ef1 c) by (intros F H; apply K2; intros z Hz Q; apply (H z Hz), ITS, Q).
    destruct (IH N2 st1 D1 Sf1 Ef1 IV1) as (st' & ys & D' & Sf' & Ef' & E2 & IV' & FN & DD & K3 & K4).
    { intros z Hz. destruct (HC z) as (A & B); [apply in_app_iff; auto|]. split; [exact A|]. rewrite DD1. intros [K|(K & _)]; [exact (B K)|]. apply ITS in K. exact (DJ z K Hz). }
    rewrite E2. cbn [rbind]. exists st', (with_seg x s1 :: ys), D', Sf', Ef'. split; [reflexivity|]. split; [exact IV'|]. split.
    { constructor; [|exact FN]. apply (now_keeps D1 Sf1 Ef1 D' Sf' Ef' (concat cs) x _ c); [split; auto| |exact K3|exact K4|exact DJ]. split; [reflexivity|exact SN1]. }
    split; [intros z; rewrite DD, DD1, ITS, in_app_iff; tauto|]. split; [exact (keeps_trans _ _ _ _ _ _ _ _ K1' K3)|exact (keeps_trans _ _ _ _ _ _ _ _ K2' K4)].
Qed.
Lemma expand_set_ok : forall set css, Forall2 (Forall2 item_ok) set css -> NoDup (concat (concat css)) -> forall st D Sf Ef, inv st D Sf Ef -> (forall x, In x (concat (concat css)) -> x < N0 /\ ~ In x D) ->
  exists st' set' D' Sf' Ef', expand_set o fuel st set = Ok (st', set') /\ inv st' D' Sf' Ef' /\ Forall2 (Forall2 (item_now D' Sf' Ef')) set set'
    /\ (forall x, In x D' <-> In x D \/ (In x (concat (concat css)) /\ mk x = true)) /\ keeps D Sf D' Sf' (concat (concat css)) /\ keeps D Ef D' Ef' (concat (concat css)).
Proof.
  induction 1 as [|xs cs set css IO IOS IH]; intros ND st D Sf Ef IV HC.
  - exists st, [], D, Sf, Ef. split; [reflexivity|]. split; [exact IV|]. split; [constructor|]. split; [cbn; tauto|]. split; apply keeps_refl.
  - cbn [concat] in *. rewrite concat_app in ND, HC |- *. destruct (NoDup_app_disjoint _ _ ND) as (N1 & N2 & DJ). cbn [expand_set].
    destruct (expand_speech_ok xs cs IO N1 st D Sf Ef IV) as (st1 & ys & D1 & Sf1 & Ef1 & -> & IV1 & FN1 & DD1 & K1 & K2); [intros z Hz; apply HC, in_app_iff; auto|]. cbn [rbind].
    destruct (IH N2 st1 D1 Sf1 Ef1 IV1) as (st' & set' & D' & Sf' & Ef' & -> & IV' & FN & DD & K3 & K4).
    { intros z Hz. destruct (HC z) as (A & B); [apply in_app_iff; auto|]. split; [exact A|]. rewrite DD1. intros [K|(K & _)]; [exact (B K)|exact (DJ z K Hz)]. }
    cbn [rbind]. exists st', (ys :: set'), D', Sf', Ef'. split; [reflexivity|]. split; [exact IV'|]. split.
    { constructor; [|exact FN]. clear - IO FN1 K3 K4 DJ. revert DJ. revert ys FN1. induction IO as [|x c xs cs IX IO IH]; intros ys FN1 DJ; inversion FN1 as [|? y ? ys' F1 F2]; subst; constructor.
      - apply (now_keeps D1 Sf1 Ef1 D' Sf' Ef' (concat (concat css)) x y c IX F1 K3 K4). intros z Hz. apply DJ. cbn [concat]. apply in_app_iff. auto.
      - apply (IH ys' F2). intros z Hz. apply DJ. cbn [concat]. apply in_app_iff. auto. }
    split; [intros z; rewrite DD, DD1, in_app_iff; tauto|]. split; [exact (keeps_trans _ _ _ _ _ _ _ _ K1 K3)|exact (keeps_trans _ _ _ _ _ _ _ _ K2 K4)].
Qed.
(** When all marked tokens are expanded the texts are read off the tokens. *)
Lemma reads_end st D Sf Ef F L firsts lasts w : inv st D Sf Ef -> (forall x, x < N0 -> mk x = true -> In x D) -> old F -> old L ->
  (forall x, In x firsts <-> cur D Sf F x) -> (forall x, In x lasts <-> cur D Ef L x) ->
  reads st firsts lasts w <-> says_via (Rd st0) (ps_links st0) F L w.
Proof.
  intros IV ALL OF OL HF HL. rewrite (i_says _ _ _ _ IV F L w OF OL).
  assert (OFF : forall l a, ~ In a D -> walk (ps_links st) a l -> forall x, In x (a :: l) -> ~ In x D).
  { induction l as [|b l IH]; intros a NA W x [<-|Hx]; [exact NA|destruct Hx|exact NA|]. destruct W as (W1 & W). apply (IH b); [apply (i_off _ _ _ _ IV a b W1)|exact W|exact Hx]. }
  assert (FA : forall a, cur D Sf F a -> ~ In a D). { intros a [(_ & K)|(t & IT & _ & IX)]; [exact K|]. intros I. apply (i_D _ _ _ _ IV) in I. destruct (i_SE _ _ _ _ IV t a IT (or_introl IX)). lia. }
  assert (RS : forall x p, ~ In x D -> Rd st x p <-> p = [src st x]). { intros x p ND. unfold Rd. split; [intros [(A & B & _)|(_ & E)]; [destruct (ND (ALL x A B))|exact E]|intros ->; right; split; [intros (A & B); exact (ND (ALL x A B))|reflexivity]]. }
  assert (CM : forall l, concat (map (fun x => [src st x]) l) = map (src st) l). { induction l as [|z l IH]; [reflexivity|]. cbn [map concat app]. f_equal. exact IH. }
  unfold reads, says_via. split.
  - intros (a & l & IA & W & IL & <-). exists a, l, (map (fun x => [src st x]) (a :: l)). split; [apply HF, IA|]. split; [exact W|]. split; [apply HL, IL|]. split.
    + refine (proj2 (Forall2_map_eq (Rd st) (fun x => [src st x]) _ _ _) eq_refl). intros x q Hx. apply RS. apply (OFF l a); [apply FA, HF, IA|exact W|exact Hx].
    + rewrite CM. reflexivity.
  - intros (a & l & ps & IA & W & IL & FR & ->). exists a, l. split; [apply HF, IA|]. split; [exact W|]. split; [apply HL, IL|].
    apply (Forall2_map_eq _ (fun x => [src st x])) in FR; [|intros x q Hx; apply RS; apply (OFF l a); [apply FA, IA|exact W|exact Hx]]. subst ps. rewrite CM. reflexivity.
Qed.
(** Reading along a chain *)
Hypothesis FORWARD : forall x y, edge (ps_links st0) x y -> x < y.
Lemma walk_up : forall l a, walk (ps_links st0) a l -> a <= last l a /\ (l <> [] -> a < last l a).
Proof. induction l as [|b l IH]; intros a W; [split; [cbn; lia|congruence]|]. destruct W as (W1 & W). rewrite last_cons. destruct (IH b W) as (A & _). apply FORWARD in W1. split; [lia|intros _; lia]. Qed.
Lemma chain_walk c : exact_chain c -> forall l pre a post, c = pre ++ (a :: l) ++ post -> walk (ps_links st0) a l.
Proof.
  intros EC. induction l as [|b l IH]; intros pre a post E; [exact I|]. split; [apply (EC pre a b (l ++ post)); [rewrite E; reflexivity|reflexivity]|]. apply (IH (pre ++ [a]) b post). rewrite E, <- app_assoc. reflexivity.
Qed.
Lemma chain_only c : exact_chain c -> forall l pre a post l', c = pre ++ (a :: l) ++ post -> walk (ps_links st0) a l' -> last l' a = last l a -> l' = l.
Proof.
  intros EC. induction l as [|b l IH]; intros pre a post l' E W HL.
  - destruct l' as [|b' l']; [reflexivity|]. destruct (walk_up _ _ W) as (_ & K). specialize (K ltac:(discriminate)). rewrite HL in K. cbn in K. lia.
  - pose proof (chain_walk c EC (b :: l) pre a post E) as WL. destruct l' as [|b' l'].
    + destruct (walk_up _ _ WL) as (_ & K). specialize (K ltac:(discriminate)). rewrite <- HL in K. cbn in K. lia.
    + destruct W as (W1 & W). apply (EC pre a b (l ++ post)) in W1; [|rewrite E; reflexivity]. subst b'. f_equal. apply (IH (pre ++ [a]) b post l'); [rewrite E, <- app_assoc; reflexivity|exact W|]. rewrite !last_cons in HL. exact HL.
Qed.
Lemma chain_says c pre a l post w : exact_chain c -> c = pre ++ (a :: l) ++ post ->
  says_via (Rd st0) (ps_links st0) (fun x => In x [a]) (fun x => In x [last l a]) w <-> exists parts, Forall2 (Rd st0) (a :: l) parts /\ w = concat parts.
Proof.
  intros EC E. split.
  - intros (a' & l' & ps & [<-|[]] & W & [HL|[]] & FR & ->). rewrite <- (chain_only c EC l pre a post l' E W (eq_sym HL)). exists ps. auto.
  - intros (ps & FR & ->). exists a, l, ps. split; [left; reflexivity|]. split; [exact (chain_walk c EC l pre a post E)|]. split; [left; reflexivity|auto].
Qed.
End Expand.
