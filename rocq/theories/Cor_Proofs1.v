(** The speakers and sentences in common. *)
From Coq Require Import List Arith ZArith NArith Bool Lia.
From Verif Require Import Base Text_Model NetDp_Model Word_Model Order_Model Order_Proofs1 Scores_Model Alex_Model Alex_Proofs2 Cor_Model Cor_Spec.
Import ListNotations.
Local Open Scope res_scope.
Local Open Scope nat_scope.

Lemma same_eqb a b : same a b = eqb b a.
Proof. unfold same, eqb. destruct (list_eq_dec N.eq_dec a b), (list_eq_dec N.eq_dec b a); congruence. Qed.

(** ** the table *)
Definition cv (t : table) (g r c : nat) : nat := nth c (nth r (nth g t []) []) 0.
Record shape (t : table) (G R C : nat) : Prop := {
  sh_g : length t = G;
  sh_r : forall g, g < G -> length (nth g t []) = R;
  sh_c : forall g r, g < G -> r < R -> length (nth r (nth g t []) []) = C
}.
Lemma put_ok t G R C g r c v : shape t G R C -> g < G -> r < R -> c < C ->
  exists t', put t g r c v = Ok t' /\ shape t' G R C /\ cv t' g r c = v
    /\ (forall g' r' c', g' < G -> r' < R -> c' < C -> (g', r', c') <> (g, r, c) -> cv t' g' r' c' = cv t g' r' c').
Proof.
  intros [Sg Sr Sc] Hg Hr Hc. unfold put. rewrite (get_ok _ g []) by lia. cbn [rbind]. rewrite (get_ok _ r []) by (rewrite Sr; lia). cbn [rbind].
  destruct (set_ok (nth r (nth g t []) []) c v 0) as (cells & -> & L1 & N1 & O1); [rewrite Sc; lia|]. cbn [rbind].
  destruct (set_ok (nth g t []) r cells []) as (rows & -> & L2 & N2 & O2); [rewrite Sr; lia|]. cbn [rbind].
  destruct (set_ok t g rows []) as (t' & -> & L3 & N3 & O3); [lia|]. exists t'. split; [reflexivity|]. split; [constructor|split].
  - lia.
  - intros g' H. destruct (Nat.eq_dec g' g) as [->|Ne]; [rewrite N3, L2; apply Sr; exact Hg|rewrite O3 by exact Ne; apply Sr; exact H].
  - intros g' r' H H'. destruct (Nat.eq_dec g' g) as [->|Ne]; [|rewrite O3 by exact Ne; apply Sc; assumption].
    rewrite N3. destruct (Nat.eq_dec r' r) as [->|Ne]; [rewrite N2, L1; apply Sc; assumption|rewrite O2 by exact Ne; apply Sc; assumption].
  - unfold cv. rewrite N3, N2. exact N1.
  - intros g' r' c' _ _ _ Ne. unfold cv. destruct (Nat.eq_dec g' g) as [->|N]; [|rewrite O3 by exact N; reflexivity].
    rewrite N3. destruct (Nat.eq_dec r' r) as [->|N]; [|rewrite O2 by exact N; reflexivity]. rewrite N2. apply O1. congruence.
Qed.

(** where an identifier is first *)
Fixpoint idx (i : list N) (ps : list sentence) (k : nat) : option nat :=
  match ps with [] => None | p :: r => if same i (s_id p) then Some k else idx i r (k + 1) end.
Lemma idx_with i ps : forall k, match idx i ps k with
  | Some q => k <= q /\ exists p, with_id i ps = Some p /\ nth_error ps (q - k) = Some p
  | None => with_id i ps = None end.
Proof.
  induction ps as [|p r IH]; intros k; cbn [idx with_id find]; [reflexivity|]. unfold with_id in *. cbn [find]. rewrite same_eqb. destruct (eqb (s_id p) i) eqn:E.
  - split; [lia|]. exists p. rewrite Nat.sub_diag. auto.
  - specialize (IH (k + 1)). destruct (idx i r (k + 1)) as [q|]; [|exact IH]. destruct IH as (L & p' & W & Nn). split; [lia|]. exists p'. split; [exact W|].
    replace (q - k) with (S (q - (k + 1))) by lia. exact Nn.
Qed.
Fixpoint idxs (i : list N) (os : list (list sentence)) : option (list nat) :=
  match os with
  | [] => Some []
  | o :: r => match idx i o 0 with None => None | Some q => match idxs i r with None => None | Some l => Some (q :: l) end end
  end.
Definition others (ss : list system) (ptr : list nat) (os : list (list sentence)) : Prop :=
  length ptr = length ss /\ length os = length ss /\
  forall k s q, nth_error ss k = Some s -> nth_error ptr k = Some q -> exists g, nth_error s q = Some g /\ nth_error os k = Some (snd g).
Lemma others_cons s ss q ptr o os : others (s :: ss) (q :: ptr) (o :: os) -> (exists g, nth_error s q = Some g /\ snd g = o) /\ others ss ptr os.
Proof.
  intros (L1 & L2 & H). split.
  - destruct (H 0 s q eq_refl eq_refl) as (g & E & F). injection F as ->. exists g. auto.
  - cbn in *. split; [lia|]. split; [lia|]. intros k s' q' A B. exact (H (S k) s' q' A B).
Qed.
Lemma get_nth {A} (l : list A) i x : nth_error l i = Some x -> get l i = Ok x.
Proof. intros E. unfold get. rewrite E. reflexivity. Qed.
(** the rows that must come out *)
Fixpoint rows_of (ps : list sentence) (os : list (list sentence)) (mpa : nat) : list (list nat) :=
  match ps with
  | [] => []
  | p :: r => match idxs (s_id p) os with Some l => [mpa :: l] | None => [] end ++ rows_of r os (mpa + 1)
  end.
Section Rows.
Variables (G R C gr : nat).
Hypothesis Hgr : gr < G.
(** the cells of the table except some of one row *)
Definition but (t t' : table) (np : nat) (P : nat -> Prop) : Prop :=
  forall g r c, g < G -> r < R -> c < C -> ~ (g = gr /\ r = np /\ P c) -> cv t' g r c = cv t g r c.
Lemma find_id_ok i np sc : np < R -> sc < C -> forall ps t pa, shape t G R C ->
  exists t', shape t' G R C /\ but t t' np (fun c => c = sc)
    /\ match idx i ps pa with
       | Some q => find_id i ps t gr np sc pa = Ok (t', true) /\ cv t' gr np sc = q
       | None => find_id i ps t gr np sc pa = Ok (t', false) end.
Proof.
  intros Hn Hs. induction ps as [|p r IH]; intros t pa Sh; cbn [find_id idx].
  - exists t. split; [exact Sh|]. split; [intros ? ? ?; reflexivity|reflexivity].
  - destruct (put_ok t G R C gr np sc pa Sh Hgr Hn Hs) as (t1 & -> & S1 & V & O). cbn [rbind]. destruct (same i (s_id p)).
    + exists t1. split; [exact S1|]. split; [|auto]. intros g r0 c H1 H2 H3 Ne. apply O; auto. intros E. injection E as -> -> ->. apply Ne; auto.
    + destruct (IH t1 (pa + 1) S1) as (t' & S' & B & M). exists t'. split; [exact S'|]. split; [|exact M].
      intros g r0 c H1 H2 H3 Ne. rewrite B by assumption. apply O; auto. intros E. injection E as -> -> ->. apply Ne; auto.
Qed.
Lemma find_ids_ok i np : np < R -> forall ss ptr os t sc, others ss ptr os -> sc + length ss <= C -> shape t G R C ->
  exists t', shape t' G R C /\ but t t' np (fun c => sc <= c)
    /\ match idxs i os with
       | Some l => find_ids i ss ptr t gr np sc = Ok (t', true) /\ length l = length ss /\ forall k, k < length l -> cv t' gr np (sc + k) = nth k l 0
       | None => find_ids i ss ptr t gr np sc = Ok (t', false) end.
Proof.
  intros Hn. induction ss as [|s ss IH]; intros [|q ptr] [|o os] t sc O Hs Sh; try (destruct O as (O1 & O2 & _); discriminate); cbn [find_ids idxs].
  - exists t. split; [exact Sh|]. split; [intros ? ? ?; reflexivity|]. split; [reflexivity|]. split; [reflexivity|]. intros k Hk; cbn in Hk; lia.
  - apply others_cons in O as ((g & Eg & <-) & O). cbn [length] in Hs. rewrite (get_nth _ _ _ Eg). cbn [rbind].
    destruct (find_id_ok i np sc Hn ltac:(lia) (snd g) t 0 Sh) as (t1 & S1 & B1 & M1). destruct (idx i (snd g) 0) as [p|].
    + destruct M1 as [-> V1]. cbn [rbind]. destruct (IH ptr os t1 (sc + 1) O ltac:(lia) S1) as (t' & S' & B' & M'). exists t'. split; [exact S'|]. split.
      * intros g' r c H1 H2 H3 Ne. rewrite B', B1; try assumption; [reflexivity| |]; intros (-> & -> & X); apply Ne; repeat split; lia.
      * destruct (idxs i os) as [l|]; [|exact M']. destruct M' as (E & L & V). split; [exact E|]. split; [cbn; lia|].
        intros [|k] Hk; cbn [nth length] in *; [rewrite Nat.add_0_r, B'; [exact V1|exact Hgr|exact Hn|lia|lia]|].
        replace (sc + S k) with (sc + 1 + k) by lia. apply V. lia.
    + rewrite M1. cbn [rbind]. exists t1. split; [exact S1|]. split; [|reflexivity]. intros g' r c H1 H2 H3 Ne. apply B1; try assumption. intros (-> & -> & ->). apply Ne. repeat split; lia.
Qed.
Lemma paths_ok ss ptr os : others ss ptr os -> C = S (length ss) -> forall ps t np mpa, shape t G R C -> np <= mpa -> mpa + length ps <= R ->
  exists t', paths_of ps ss ptr gr t gr np mpa = Ok (t', np + length (rows_of ps os mpa)) /\ shape t' G R C
    /\ (forall g r c, g < G -> r < R -> c < C -> g <> gr \/ r < np -> cv t' g r c = cv t g r c)
    /\ (forall k, k < length (rows_of ps os mpa) -> nth (np + k) (nth gr t' []) [] = nth k (rows_of ps os mpa) []).
Proof.
  intros O HC. induction ps as [|p r IH]; intros t np mpa Sh Hn Hr; cbn [paths_of rows_of].
  - exists t. rewrite Nat.add_0_r. split; [reflexivity|]. split; [exact Sh|]. split; [reflexivity|]. intros k Hk; cbn in Hk; lia.
  - cbn [length] in Hr. destruct (put_ok t G R C gr np 0 mpa Sh Hgr ltac:(lia) ltac:(lia)) as (t1 & -> & S1 & V1 & O1). cbn [rbind].
    destruct (find_ids_ok (s_id p) np ltac:(lia) ss ptr os t1 1 O ltac:(lia) S1) as (t2 & S2 & B2 & M2).
    destruct (idxs (s_id p) os) as [l|].
    + destruct M2 as (-> & L & V). cbn [rbind]. destruct (IH t2 (np + 1) (mpa + 1) S2 ltac:(lia) ltac:(lia)) as (t' & E & S' & K & Rr).
      exists t'. rewrite E. cbn [app length]. split; [f_equal; f_equal; lia|]. split; [exact S'|]. split.
      * intros g r0 c H1 H2 H3 Ne. rewrite K, B2, O1; try assumption; [reflexivity| | |]; try (intros X; injection X as -> -> ->); try (intros (-> & -> & X)); try lia.
      * intros [|k] Hk; [|cbn [nth]; replace (np + S k) with (np + 1 + k) by lia; apply Rr; lia].
        rewrite Nat.add_0_r. cbn [nth]. apply (nth_ext _ _ 0 0); [rewrite (sh_c _ _ _ _ S') by lia; cbn; lia|].
        rewrite (sh_c _ _ _ _ S') by lia. intros c Hc. change (cv t' gr np c = nth c (mpa :: l) 0). rewrite K by lia.
        destruct c as [|c]; [rewrite B2 by lia; exact V1|]. cbn [nth]. apply (V c). lia.
    + rewrite M2. cbn [rbind app]. destruct (IH t2 np (mpa + 1) S2 ltac:(lia) ltac:(lia)) as (t' & E & S' & K & Rr). exists t'. rewrite E. split; [reflexivity|]. split; [exact S'|]. split; [|exact Rr].
      intros g r0 c H1 H2 H3 Ne. rewrite K, B2, O1; try assumption; [reflexivity| |]; try (intros X; injection X as -> -> ->); try (intros (-> & -> & X)); lia.
Qed.
End Rows.
