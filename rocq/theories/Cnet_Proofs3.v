(** The pieces of a word. *)
From Coq Require Import List NArith ZArith Arith Bool Lia.
From Verif Require Import Base Text_Model Text_Spec Text_Proofs1 Text_Proofs3 Text_Proofs4 Word_Model Word_Spec Word_Proofs Case_Model Anet_Model Anet_Spec Anet_Proofs4 Anet_Proofs5 Anet_Proofs6
  Sep_Model Sep_Spec Sep_Proofs Sep_Thm Cnet_Spec.
Import ListNotations.
Local Open Scope res_scope.

Fixpoint join (l : list (list N)) : list N :=
  match l with [] => [] | x :: r => match r with [] => x | _ => x ++ 32%N :: join r end end.

Section Pieces.
Variable e : enc.
Variable p : profile.
Variables na dh : bool.
Hypothesis GU : p = Guarani -> e = GB \/ e = UTF8.
Definition lchar (c : list N) : Prop := is_char e c /\ letter c.

Lemma runs_head y r : exists g gs, runs e na (y :: r) = (y :: g) :: gs.
Proof.
  cbn [runs]. destruct (runs e na r) as [|[|z g] gs]; [eauto|eauto|]. destruct (apart e na y z); eauto.
Qed.
Lemma runs_step x y r : exists g gs, runs e na (y :: r) = (y :: g) :: gs /\ runs e na (x :: y :: r) = if apart e na x y then [x] :: (y :: g) :: gs else (x :: y :: g) :: gs.
Proof. destruct (runs_head y r) as (g & gs & E). exists g, gs. split; [exact E|]. cbn [runs] in *. rewrite E. reflexivity. Qed.
Lemma spread_runs us : spread e na us = join (map (@concat N) (runs e na us)).
Proof.
  induction us as [|x us IH]; [reflexivity|]. destruct us as [|y r].
  - cbn. rewrite app_nil_r. reflexivity.
  - destruct (runs_step x y r) as (g & gs & E1 & E2). rewrite E2. rewrite E1 in IH. cbn [spread] in *. rewrite IH.
    destruct (apart e na x y); cbn [map join].
    + cbn [concat]. rewrite app_nil_r. reflexivity.
    + destruct gs; cbn [concat map app]; rewrite <- ?app_assoc; reflexivity.
Qed.
Definition together (g : list (list N)) : Prop := forall l x y r, g = l ++ x :: y :: r -> apart e na x y = false.
Lemma together_tail x g : together (x :: g) -> together g.
Proof. intros T l a b r E. apply (T (x :: l) a b r). rewrite E. reflexivity. Qed.
Lemma runs_facts us : Forall (fun g => g <> [] /\ incl g us /\ together g) (runs e na us).
Proof.
  induction us as [|x us IH]; [constructor|]. destruct us as [|y r].
  - cbn. constructor; [|constructor]. split; [discriminate|]. split; [apply incl_refl|]. intros l a b q E. destruct l as [|? [|? l]]; discriminate.
  - destruct (runs_step x y r) as (g & gs & E1 & E2). rewrite E2. rewrite E1 in IH.
    assert (K : Forall (fun g => g <> [] /\ incl g (x :: y :: r) /\ together g) ((y :: g) :: gs)).
    { eapply Forall_impl; [|exact IH]. intros a (A & B & C). split; [exact A|]. split; [|exact C]. intros z Hz. right. apply B, Hz. }
    destruct (apart e na x y) eqn:EA.
    + constructor; [|exact K]. split; [discriminate|]. split; [intros z [<-|[]]; left; reflexivity|]. intros l a b q E. destruct l as [|? [|? l]]; discriminate.
    + inversion K as [|? ? (A & B & C) K2]; subst. constructor; [|exact K2]. split; [discriminate|]. split; [intros z [<-|Hz]; [left; reflexivity|apply B, Hz]|].
      intros l a b q E. destruct l as [|? l]; cbn [app] in E; [injection E as -> -> _; exact EA|]. injection E as _ E. exact (C l a b q E).
Qed.
Lemma together_spread g : together g -> spread e na g = concat g.
Proof.
  induction g as [|x g IH]; intros T; [reflexivity|]. cbn [spread concat]. f_equal. destruct g as [|y r]; [reflexivity|].
  rewrite (T [] x y r eq_refl). cbn [app]. apply IH, (together_tail x), T.
Qed.
Lemma runs_concat us : concat (concat (runs e na us)) = concat us.
Proof.
  induction us as [|x us IH]; [reflexivity|]. destruct us as [|y r]; [cbn; rewrite !app_nil_r; reflexivity|].
  destruct (runs_step x y r) as (g & gs & E1 & E2). rewrite E2. rewrite E1 in IH. cbn [concat] in *. rewrite <- IH.
  destruct (apart e na x y); cbn [concat app]; rewrite ?app_nil_r; reflexivity.
Qed.

(** ** Units *)
Lemma unit_shape cs us : units p cs us -> Forall lchar cs ->
  Forall (fun u => lchar u \/ (p = Guarani /\ exists g t, tilde_g g t /\ lchar g /\ lchar t /\ u = g ++ t)) us.
Proof.
  intros U. induction U as [|g t cs us P T U IH|c cs us NT U IH]; intros F; constructor.
  - right. split; [exact P|]. exists g, t. inversion F as [|? ? F1 F2]; subst. inversion F2; subst. auto.
  - apply IH. inversion F as [|? ? F1 F2]; subst. inversion F2; assumption.
  - left. exact (Forall_inv F).
  - apply IH, (Forall_inv_tail F).
Qed.
Lemma units_self g : Forall lchar g -> (p = Guarani -> Forall (fun u => length u = 1) g) -> units p g g.
Proof.
  induction g as [|x g IH]; intros F S; [constructor|]. apply units_char.
  - intros P t cs' -> [_ ->]. specialize (S P). inversion S as [|? ? _ S2]; subst. pose proof (Forall_inv S2) as K. discriminate K.
  - apply IH; [exact (Forall_inv_tail F)|]. intros P. exact (Forall_inv_tail (S P)).
Qed.
Lemma lchar_blank u : lchar u -> is_blank u = false.
Proof.
  intros (_ & _ & NS & _). destruct u as [|b [|c u]]; try reflexivity. cbn. apply N.eqb_neq. intros ->. apply NS. exists 32%N. split; [reflexivity|]. left. reflexivity.
Qed.
Lemma unit_blank u : lchar u \/ (p = Guarani /\ exists g t, tilde_g g t /\ lchar g /\ lchar t /\ u = g ++ t) -> is_blank u = false.
Proof. intros [H|(_ & g & t & ([->| ->] & ->) & _ & _ & ->)]; [apply lchar_blank, H|reflexivity|reflexivity]. Qed.
(** What the pieces are made of: one unit, or ASCII characters. *)
Definition piece_units (g : list (list N)) : Prop :=
  g <> [] /\ together g /\ kept dh g = g /\
  (Forall lchar g /\ (length g = 1 \/ na = true /\ (p = Guarani -> Forall (fun u => length u = 1) g)) \/ (p = Guarani /\ exists a t, tilde_g a t /\ lchar a /\ lchar t /\ g = [a ++ t])).
Lemma kept_sub g us : incl g (kept dh us) -> kept dh g = g.
Proof.
  unfold kept. induction g as [|x g IH]; intros I; [reflexivity|]. cbn [filter]. assert (K : In x (filter (fun u => negb (dh && is_hyphen u)) us)) by (apply I; left; reflexivity).
  apply filter_In in K. rewrite (proj2 K), IH; [reflexivity|]. intros y J. apply I. right. exact J.
Qed.
Lemma together_ascii g : together g -> Forall (fun u => is_blank u = false) g -> 2 <= length g -> na = true /\ Forall (fun u => ascii_unit e u = true) g.
Proof.
  induction g as [|x g IH]; intros T B L; cbn [length] in L; [lia|]. destruct g as [|y r]; [cbn [length] in L; lia|].
  pose proof (T [] x y r eq_refl) as K. unfold apart in K. rewrite (Forall_inv B), (Forall_inv (Forall_inv_tail B)) in K. cbn [negb andb] in K.
  apply negb_false_iff in K. apply andb_prop in K. destruct K as [K A2]. apply andb_prop in K. destruct K as [NA A1]. split; [exact NA|]. constructor; [exact A1|].
  destruct r as [|z r]; [constructor; [exact A2|constructor]|]. apply IH; [apply (together_tail x), T|exact (Forall_inv_tail B)|cbn [length]; lia].
Qed.
Lemma runs_units cs us : units p cs us -> Forall lchar cs -> Forall piece_units (runs e na (kept dh us)).
Proof.
  intros U F. pose proof (unit_shape cs us U F) as SH. pose proof (runs_facts (kept dh us)) as RF. eapply Forall_impl; [|exact RF]. intros g (NE & IN & T).
  assert (SG : Forall (fun u => lchar u \/ (p = Guarani /\ exists g t, tilde_g g t /\ lchar g /\ lchar t /\ u = g ++ t)) g).
  { apply Forall_forall. intros u J. rewrite Forall_forall in SH. apply SH. apply IN in J. unfold kept in J. apply filter_In in J. apply J. }
  split; [exact NE|]. split; [exact T|]. split; [exact (kept_sub g us IN)|].
  destruct g as [|x [|y r]]; [congruence| |].
  - pose proof (Forall_inv SG) as [H|(P & a & t & TG & HA & HT & ->)].
    + left. split; [constructor; [exact H|constructor]|]. left. reflexivity.
    + right. split; [exact P|]. exists a, t. auto.
  - left. destruct (together_ascii (x :: y :: r) T) as [NA AS]; [eapply Forall_impl; [|exact SG]; intros u Hu; apply unit_blank, Hu|cbn [length]; lia|].
    assert (LN : p = Guarani -> Forall (fun u => length u = 1) (x :: y :: r)).
    { intros P. eapply Forall_impl; [|exact AS]. intros u Hu. unfold ascii_unit in Hu. destruct (GU P) as [->| ->]; apply Nat.eqb_eq in Hu; exact Hu. }
    split; [|right; split; assumption]. apply Forall_forall. intros u J. rewrite Forall_forall in SG. destruct (SG u J) as [H|(P & a & t & ([->| ->] & ->) & _ & _ & ->)]; [exact H| |];
      specialize (LN P); rewrite Forall_forall in LN; specialize (LN _ J); discriminate LN.
Qed.
Lemma piece_tok g : piece_units g -> exists tok, Forall lchar tok /\ tok <> [] /\ concat tok = concat g /\ units p tok g.
Proof.
  intros (NE & _ & _ & [(F & [L|(_ & S)])|(P & a & t & TG & HA & HT & ->)]).
  - exists g. split; [exact F|]. split; [exact NE|]. split; [reflexivity|]. destruct g as [|x [|y g]]; try discriminate. apply units_char; [intros _ t cs' E; discriminate|constructor].
  - exists g. split; [exact F|]. split; [exact NE|]. split; [reflexivity|]. apply units_self; assumption.
  - exists [a; t]. split; [constructor; [exact HA|constructor; [exact HT|constructor]]|]. split; [discriminate|]. split; [cbn; rewrite !app_nil_r; reflexivity|]. apply units_g; [exact P|exact TG|constructor].
Qed.
Lemma lchar_star u b : lchar u -> (exists r, u = r ++ [b]) -> (b < 0x80)%N -> u = [b].
Proof.
  intros (_ & (HM & _) & _) (r & ->) L. destruct r as [|a r]; [reflexivity|]. exfalso.
  assert (K : 1 < length ((a :: r) ++ [b])) by (rewrite app_length; cbn [length]; lia). specialize (HM K). apply Forall_app in HM. destruct HM as [_ HM]. pose proof (Forall_inv HM) as HB. cbn beta in HB. lia.
Qed.
(** Without its star a piece is one still. *)
Lemma piece_star g : piece_units g -> exists g', piece_units g' /\ concat g' = starless (concat g).
Proof.
  intros PU. pose proof PU as (NE & T & K & H). unfold starless.
  assert (SAME : exists g', piece_units g' /\ concat g' = concat g) by (exists g; auto).
  destruct (concat g) as [|b0 [|b1 r]] eqn:EC; try exact SAME. destruct (N.eqb_spec (last (b0 :: b1 :: r) 0%N) 42) as [EL|_]; [|exact SAME].
  assert (EX : concat g = removelast (b0 :: b1 :: r) ++ [42%N]) by (rewrite EC, <- EL; apply app_removelast_last; discriminate).
  destruct (exists_last NE) as (g0 & u & ->). rewrite concat_app in EX. cbn [concat] in EX. rewrite app_nil_r in EX.
  assert (RN : removelast (b0 :: b1 :: r) <> []) by (cbn; destruct r; discriminate).
  destruct H as [(F & LS)|(P & a & t & ([->| ->] & ->) & _ & _ & E)].
  - apply Forall_app in F. destruct F as [F0 FU]. apply Forall_inv in FU.
    assert (UN : u <> []) by (destruct FU as ((l & q & -> & _) & _); discriminate).
    destruct (exists_last UN) as (u0 & b & EU). assert (b = 42%N) by (rewrite EU, app_assoc in EX; apply app_inj_tail in EX; apply EX). subst b.
    assert (U42 : u = [42%N]) by (apply lchar_star; [exact FU|exists u0; exact EU|lia]). clear EU. subst u. apply app_inj_tail in EX. destruct EX as [EX _].
    exists g0. split; [|exact EX]. assert (NE0 : g0 <> []) by (intros ->; cbn in EX; congruence).
    split; [exact NE0|]. split; [|split].
    + intros l x y q E. apply (T l x y (q ++ [[42%N]])). rewrite E, <- app_assoc. reflexivity.
    + unfold kept in *. rewrite filter_app in K. clear - K. assert (Q : length (filter (fun u => negb (dh && is_hyphen u)) g0 ++ filter (fun u => negb (dh && is_hyphen u)) [[42%N]]) = length (g0 ++ [[42%N]])) by (rewrite K; reflexivity).
      cbn [filter is_hyphen] in *. replace ((42 =? 45)%N) with false in * by reflexivity. rewrite andb_false_r in *. cbn [negb] in *. apply app_inj_tail in K. apply K.
    + left. split; [exact F0|]. destruct LS as [L|(NA & S)]; [rewrite app_length in L; cbn [length] in L; destruct g0; [congruence|cbn [length] in L; lia]|].
      right. split; [exact NA|]. intros P. specialize (S P). apply Forall_app in S. apply S.
  - destruct g0 as [|? [|? ?]]; cbn [app] in E; try discriminate. injection E as ->. cbn [concat app] in EX. change (71 :: [204; 131])%N with ([71; 204] ++ [131])%N in EX. apply app_inj_tail in EX. destruct EX; discriminate.
  - destruct g0 as [|? [|? ?]]; cbn [app] in E; try discriminate. injection E as ->. cbn [concat app] in EX. change (103 :: [204; 131])%N with ([103; 204] ++ [131])%N in EX. apply app_inj_tail in EX. destruct EX; discriminate.
Qed.
(** Separating the characters of a piece changes nothing. *)
Lemma separate_piece junk g buf : piece_units g -> 10 <= length buf ->
  exists buf', separate e p na dh junk (cstr (concat g)) buf = Ok buf' /\ holds buf' (concat g) /\ length buf <= length buf'.
Proof.
  intros PU L. destruct (piece_tok g PU) as (tok & FT & _ & EC & U). destruct PU as (_ & T & K & _).
  assert (CO : chars_of e (concat g) tok) by (split; [symmetry; exact EC|eapply Forall_impl; [|exact FT]; intros c Hc; apply Hc]).
  destruct (C86_separated e p na dh junk (cstr (concat g)) (concat g) tok g buf) as (buf' & E & H & LL); auto.
  - apply (well_formed_holds e). exists tok. exact CO.
  - exists buf'. split; [exact E|]. rewrite K, together_spread in H by exact T. auto.
Qed.

(** ** Bytes *)
Lemma lchar_in b c : lchar c -> In b c -> (b < 0x80)%N -> c = [b].
Proof.
  intros (_ & (HM & _) & _) I L. destruct c as [|x [|y c]]; [destruct I|destruct I as [->|[]]; reflexivity|]. exfalso.
  assert (K : 1 < length (x :: y :: c)) by (cbn [length]; lia). specialize (HM K). rewrite Forall_forall in HM. specialize (HM b I). lia.
Qed.
Lemma lchars_no b cs : Forall lchar cs -> (b = 32 \/ b = 123 \/ b = 59 \/ b = 92)%N -> ~ In b (concat cs).
Proof.
  intros F B I. apply in_concat in I. destruct I as (c & Hc & Hb). rewrite Forall_forall in F. specialize (F c Hc).
  assert (c = [b]) by (apply lchar_in; [exact F|exact Hb|destruct B as [->|[->|[->| ->]]]; lia]). subst c. destruct F as (_ & (_ & N59 & N92) & NS & NB).
  destruct B as [->|[->|[->| ->]]]; [apply NS; exists 32%N; split; [reflexivity|left; reflexivity]|congruence|apply N59; left; reflexivity|apply N92; left; reflexivity].
Qed.
Lemma lchars_word cs : Forall lchar cs -> cs <> [] -> token_word e (concat cs) = Ok (new_word (concat cs) 0 0 false false (-1000)).
Proof.
  intros F NE. assert (HC : Forall (is_char e) cs) by (eapply Forall_impl; [|exact F]; intros c Hc; apply Hc).
  assert (HH : Forall high_multibyte cs) by (eapply Forall_impl; [|exact F]; intros c Hc; apply Hc).
  assert (NB : forall t, cs <> [123%N] :: t). { intros t ->. apply (lchars_no 123 _ F); [auto|left; reflexivity]. }
  pose proof (parse_plain e cs [] (conj HC (conj HH (lchars_no 92 cs F ltac:(auto)))) (lead_brace e cs HC NB)) as P. rewrite esc_id in P by (apply lchars_no; auto).
  unfold token_word, cstr. rewrite P. reflexivity.
Qed.
Lemma starless_word t : w_value (new_word t 0 0 false false (-1000)) = starless t.
Proof. reflexivity. Qed.

(** ** The text of the pieces *)
Fixpoint joinc (l : list chars) : chars := match l with [] => [] | x :: r => match r with [] => x | _ => x ++ [32%N] :: joinc r end end.
Lemma join_chars ts : concat (joinc ts) = join (map (@concat N) ts).
Proof.
  induction ts as [|t ts IH]; [reflexivity|]. cbn [joinc map join]. destruct ts as [|t2 ts]; [reflexivity|]. rewrite concat_app. cbn [concat]. rewrite IH. reflexivity.
Qed.
Lemma blank_is_char : is_char e [32%N].
Proof. clear GU. exists 32%N, []. split; [reflexivity|]. split; [destruct e; cbn; lia|repeat constructor]. Qed.
Lemma joinc_chars ts : Forall (Forall lchar) ts -> Forall (is_char e) (joinc ts).
Proof.
  induction 1 as [|t ts H F IH]; [constructor|]. assert (HT : Forall (is_char e) t) by (eapply Forall_impl; [|exact H]; intros c Hc; apply Hc).
  cbn [joinc]. destruct ts as [|t2 ts]; [exact HT|]. apply Forall_app. split; [exact HT|]. constructor; [apply blank_is_char|exact IH].
Qed.
Lemma lchars_plain t rest : Forall lchar t -> t <> [] -> (rest = [] \/ starts_with_space rest) -> plain_word t rest.
Proof.
  intros F NE R. split; [exact NE|]. split; [intros t' ->; apply (lchars_no 123 _ F); [auto|left; reflexivity]|]. split; [|exact R].
  eapply Forall_impl; [|exact F]. intros c Hc. apply Hc.
Qed.
Lemma joinc_tokens ts : Forall (Forall lchar) ts -> Forall (fun t => t <> []) ts -> ts <> [] -> tokenised (joinc ts) ts.
Proof.
  induction 1 as [|t ts H F IH]; intros NE N0; [congruence|]. cbn [joinc]. destruct ts as [|t2 ts].
  - pose proof (tk_cons [] t [] []) as K. cbn [app] in K. rewrite app_nil_r in K. apply K; [constructor| |constructor; constructor]. right. apply lchars_plain; [exact H|exact (Forall_inv NE)|auto].
  - assert (K : tokenised (joinc (t2 :: ts)) (t2 :: ts)) by (apply IH; [exact (Forall_inv_tail NE)|discriminate]).
    assert (K2 : tokenised ([32%N] :: joinc (t2 :: ts)) (t2 :: ts)).
    { remember (joinc (t2 :: ts)) as J eqn:EJ. clear EJ. inversion K as [|ws tok rest ts' W T R E1 E2]; subst. change ([32%N] :: ws ++ t2 ++ rest) with (([32%N] :: ws) ++ t2 ++ rest). apply tk_cons; [|exact T|exact R].
      constructor; [exists 32%N; split; [reflexivity|left; reflexivity]|exact W]. }
    apply (tk_cons [] t ([32%N] :: joinc (t2 :: ts)) (t2 :: ts)); [constructor| |exact K2]. right. apply lchars_plain; [exact H|exact (Forall_inv NE)|]. right.
    eexists _, _. split; [reflexivity|]. exists 32%N. split; [reflexivity|left; reflexivity].
Qed.
End Pieces.
